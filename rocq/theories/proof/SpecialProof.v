From Coq Require Import Reals Lra SpecFloat.
From Verif.model Require Import Base VectorMath SpecialTables Special.
From Verif.spec Require Import SpecialSpec.
From Verif.proof Require Import BaseProof LoopProof VectorProof LnBounds.
Local Open Scope Z_scope.

(** *** Bit operations as arithmetic *)
Lemma as_int_mod b k : pattern b -> 0 <= k <= 32 -> as_int b mod 2 ^ k = b mod 2 ^ k.
Proof.
  intros Hb Hk. unfold as_int. destruct (b <? 2147483648); [reflexivity |].
  replace 4294967296 with (2 ^ (32 - k) * 2 ^ k)
    by (rewrite <- Z.pow_add_r by lia; replace (32 - k + k) with 32 by lia; reflexivity).
  rewrite <- (Z_mod_plus_full (b - _) (2 ^ (32 - k)) (2 ^ k)). f_equal. lia.
Qed.

Lemma field_exp b : pattern b -> Z.land (Z.shiftr (as_int b) 23) 255 = (b / 8388608) mod 256.
Proof.
  intros Hb. change 255 with (Z.ones 8). rewrite Z.land_ones by lia. rewrite Z.shiftr_div_pow2 by lia.
  change (2 ^ 8) with 256. change (2 ^ 23) with 8388608.
  unfold as_int. destruct (Z.ltb_spec b 2147483648); [reflexivity |].
  replace (b - 4294967296) with (b + (-512) * 8388608) by lia. rewrite Z.div_add by lia.
  replace (b / 8388608 + -512) with (b / 8388608 + (-2) * 256) by lia. apply Z_mod_plus_full.
Qed.

Lemma field_man N b : pattern b -> 0 <= N <= 23 ->
  fastlog_man N b = (b mod 8388608) / 2 ^ (23 - N).
Proof.
  intros Hb HN. unfold fastlog_man. change 8388607 with (Z.ones 23).
  rewrite Z.land_ones, Z.shiftr_div_pow2 by lia. rewrite as_int_mod by (assumption || lia). reflexivity.
Qed.

Lemma man_range N b : pattern b -> 0 <= N <= 23 -> 0 <= fastlog_man N b < 2 ^ N.
Proof.
  intros Hb HN. rewrite field_man by assumption.
  pose proof (Z.mod_pos_bound b 8388608 ltac:(lia)).
  assert (0 < 2 ^ (23 - N)) by (apply Z.pow_pos_nonneg; lia).
  split; [apply Z.div_pos; lia |]. apply Z.div_lt_upper_bound; [lia |].
  rewrite <- Z.pow_add_r by lia. replace (23 - N + N) with 23 by lia. lia.
Qed.

(** *** The table of FastLog *)
Local Open Scope R_scope.
Definition log2t (N i : Z) : R := ln (1 + IZR i / IZR (2 ^ N)) / ln 2.

Lemma table_ok N : (0 <= N <= 23)%Z -> exists t, fastlog_table N = Ok t /\
  length t = Z.to_nat (2 ^ N) /\
  forall i, (0 <= i < 2 ^ N)%Z -> zget t i = Ok (log2t N i).
Proof.
  intros HN. unfold fastlog_table. rewrite Z.shiftl_1_l.
  set (size := Z.to_nat (2 ^ N)).
  assert (forall i, IZR i * IZR (Z.shiftl 1 (23 - N)) / IZR (Z.shiftl 1 23) = IZR i / IZR (2 ^ N)) as E.
  { intros i. rewrite !Z.shiftl_1_l.
    assert (2 ^ 23 = 2 ^ N * 2 ^ (23 - N))%Z as ->
      by (rewrite <- Z.pow_add_r by lia; f_equal; lia).
    rewrite mult_IZR.
    assert (0 < IZR (2 ^ N)) by (apply IZR_lt, Z.pow_pos_nonneg; lia).
    assert (0 < IZR (2 ^ (23 - N))) by (apply IZR_lt, Z.pow_pos_nonneg; lia).
    field. lra. }
  destruct (vfor_upd (fun i table => vset table i
      (ln (1 + IZR (Z.of_nat i) * IZR (Z.shiftl 1 (23 - N)) / IZR (Z.shiftl 1 23)) / ln 2))
    (fun i _ => log2t N (Z.of_nat i)) size 0 (repeat 0 size)) as (t & Et & Lt & Nin & _).
  - rewrite repeat_length. lia.
  - intros i l' x Hi HL _ _. rewrite repeat_length in HL. unfold vset.
    destruct (Nat.ltb_spec i (length l')); [| lia]. unfold log2t. now rewrite E.
  - rewrite repeat_length in Lt. exists t. split; [exact Et |]. split; [exact Lt |].
    intros i Hi. unfold zget. destruct (Z.ltb_spec i 0); [lia |].
    assert (Z.to_nat i < size)%nat as Hs by (unfold size; apply Z2Nat.inj_lt; lia).
    unfold vget. rewrite (Nin (Z.to_nat i) 0).
    + rewrite Z2Nat.id by lia. reflexivity.
    + lia.
    + rewrite (nth_error_nth' _ 0) by (rewrite repeat_length; exact Hs). now rewrite nth_repeat.
Qed.

Lemma fast_log_eq b : pattern b ->
  fast_log b = Ok ((IZR ((b / 8388608) mod 256 - 127) + log2t 14 ((b mod 8388608) / 512)) * ln2_float).
Proof.
  intros Hb. unfold fast_log. destruct (table_ok 14 ltac:(lia)) as (t & Et & _ & Ht).
  rewrite Et. cbn [obind]. unfold fastlog.
  rewrite Ht by (apply man_range; [assumption | lia]). cbn [obind].
  unfold fastlog_exp. rewrite field_exp, field_man by (assumption || lia). reflexivity.
Qed.

(** Any table of the right size keeps every pattern in range. *)
Lemma fastlog_safe N t b : pattern b -> (0 <= N <= 23)%Z -> length t = Z.to_nat (2 ^ N) ->
  exists r, fastlog N t b = Ok r.
Proof.
  intros Hb HN HL. unfold fastlog, zget. pose proof (man_range N b Hb HN) as [A B].
  destruct (Z.ltb_spec (fastlog_man N b) 0); [lia |]. unfold vget.
  destruct (nth_error t (Z.to_nat (fastlog_man N b))) as [v |] eqn:E; [eexists; reflexivity |].
  apply nth_error_None in E. exfalso. assert (Z.to_nat (fastlog_man N b) < length t)%nat; [| lia].
  rewrite HL. apply Z2Nat.inj_lt; lia.
Qed.

(** *** Accuracy *)
Lemma ln2_pos : 0 < ln 2.
Proof. pose proof ln2_lo. lra. Qed.

Lemma ln_le_sub1 x : 0 < x -> ln x <= x - 1.
Proof.
  intros Hx. pose proof (exp_ineq1_le (ln x)) as H. rewrite exp_ln in H by assumption. lra.
Qed.

(** ln x - (integer part + table) ln 2 for a positive normal x. *)
Lemma split_log b : positive_normal b ->
  let e := (b / 8388608 - 127)%Z in
  let man := ((b mod 8388608) / 512)%Z in
  ((b / 8388608) mod 256 = e + 127)%Z /\
  0 <= ln (normal_value b) - (IZR e + log2t 14 man) * ln 2 <= / 16384.
Proof.
  intros Hb e man. unfold positive_normal in Hb.
  assert (1 <= b / 8388608 <= 254)%Z as He.
  { split; [apply Z.div_le_lower_bound; lia |]. apply Z.lt_succ_r, Z.div_lt_upper_bound; lia. }
  split; [rewrite Z.mod_small; unfold e; lia |].
  pose proof (Z.mod_pos_bound b 8388608 ltac:(lia)) as HM.
  set (M := (b mod 8388608)%Z) in *.
  assert (512 * man <= M < 512 * man + 512)%Z as HMm.
  { unfold man. pose proof (Z.div_mod M 512 ltac:(lia)). pose proof (Z.mod_pos_bound M 512 ltac:(lia)). lia. }
  assert (0 <= man)%Z by (unfold man; apply Z.div_pos; lia).
  assert (0 <= IZR man) by (apply IZR_le; assumption).
  destruct HMm as [H1 H2]. apply IZR_le in H1. apply IZR_lt in H2.
  rewrite plus_IZR, !mult_IZR in H2. rewrite mult_IZR in H1.
  unfold normal_value. fold M. fold e.
  set (u := 1 + IZR M / 8388608). set (v := 1 + IZR man / 16384).
  assert (1 <= v) by (unfold v, Rdiv; lra).
  assert (v <= u) by (unfold u, v; lra). assert (u <= v + / 16384) by (unfold u, v; lra).
  rewrite ln_mult; [| lra | apply powerRZ_lt; lra].
  assert (ln (powerRZ 2 e) = IZR e * ln 2) as ->.
  { rewrite powerRZ_Rpower by lra. apply ln_exp. }
  unfold log2t. change (2 ^ 14)%Z with 16384%Z. fold v. pose proof ln2_pos.
  replace (ln u + IZR e * ln 2 - (IZR e + ln v / ln 2) * ln 2) with (ln u - ln v) by (field; lra).
  assert (ln u - ln v = ln (u / v)) as -> by (unfold Rdiv; rewrite ln_mult, ln_Rinv by
    (try lra; apply Rinv_0_lt_compat; lra); ring).
  assert (1 <= u / v) as L1.
  { apply Rmult_le_reg_r with v; [lra |]. unfold Rdiv. rewrite Rmult_assoc, Rinv_l by lra. lra. }
  assert (u / v <= 1 + / 16384) as L2.
  { apply Rmult_le_reg_r with v; [lra |]. unfold Rdiv. rewrite Rmult_assoc, Rinv_l by lra. nra. }
  split.
  - rewrite <- ln_1. destruct L1 as [L1 | <-]; [| lra]. left. apply ln_increasing; lra.
  - pose proof (ln_le_sub1 (u / v) ltac:(lra)). lra.
Qed.

Lemma ln2_float_close : 0 < ln2_float - ln 2 <= 0.00000000191.
Proof. pose proof ln2_lo. pose proof ln2_hi. unfold ln2_float. lra. Qed.

Lemma log2t_range i : (0 <= i < 16384)%Z -> 0 <= log2t 14 i <= 1.
Proof.
  intros Hi. unfold log2t. change (2 ^ 14)%Z with 16384%Z. pose proof ln2_pos.
  assert (0 <= IZR i) by (apply IZR_le; lia). assert (IZR i <= 16384) by (apply IZR_le; lia).
  assert (0 <= ln (1 + IZR i / 16384)) as A.
  { rewrite <- ln_1. destruct (Req_dec (IZR i) 0) as [-> | N]; [right; f_equal; lra |].
    left. apply ln_increasing; lra. }
  assert (ln (1 + IZR i / 16384) <= ln 2) as B.
  { destruct (Req_dec (IZR i) 16384) as [-> | N]; [right; f_equal; lra |].
    left. apply ln_increasing; lra. }
  split.
  - apply Rmult_le_pos; [exact A |]. left. now apply Rinv_0_lt_compat.
  - apply Rmult_le_reg_r with (ln 2); [assumption |]. unfold Rdiv. rewrite Rmult_assoc, Rinv_l; lra.
Qed.

Lemma man_small b : (0 <= (b mod 8388608) / 512 < 16384)%Z.
Proof.
  pose proof (Z.mod_pos_bound b 8388608 ltac:(lia)).
  split; [apply Z.div_pos; lia | apply Z.div_lt_upper_bound; lia].
Qed.

Lemma normal_pattern b : positive_normal b -> pattern b.
Proof. unfold positive_normal, pattern. lia. Qed.

(** The IEEE constant: error up to 128 * 1.91e-9 on either side, on top of the table step. *)
Lemma fast_log_accuracy b : positive_normal b -> exists r, fast_log b = Ok r /\
  - 0.00000025 <= ln (normal_value b) - r <= / 16384 + 0.00000025.
Proof.
  intros Hb. eexists; split; [apply fast_log_eq, normal_pattern, Hb |].
  destruct (split_log b Hb) as [E1 E2]. rewrite E1.
  replace ((b / 8388608 - 127 + 127 - 127))%Z with (b / 8388608 - 127)%Z by lia.
  pose proof (log2t_range _ (man_small b)) as HT.
  assert (-126 <= IZR (b / 8388608 - 127) <= 127) as HE.
  { unfold positive_normal in Hb.
    assert (1 <= b / 8388608 <= 254)%Z as He.
    { split; [apply Z.div_le_lower_bound; lia |]. apply Z.lt_succ_r, Z.div_lt_upper_bound; lia. }
    split; [apply (IZR_le (-126)) | apply (IZR_le _ 127)]; lia. }
  set (s := IZR (b / 8388608 - 127) + log2t 14 (b mod 8388608 / 512)) in *.
  assert (-126 <= s <= 128) by (unfold s; lra). pose proof ln2_float_close as HC.
  replace (ln (normal_value b) - s * ln2_float)
    with ((ln (normal_value b) - s * ln 2) - s * (ln2_float - ln 2)) by ring.
  assert (- (126 * 0.00000000191) <= s * (ln2_float - ln 2) <= 128 * 0.00000000191) by nra. lra.
Qed.

(** Larger patterns of non-negative floats give larger or equal answers. *)
Lemma fast_log_mono b1 b2 : (0 <= b1 <= b2)%Z -> (b2 < 2147483648)%Z ->
  exists r1 r2, fast_log b1 = Ok r1 /\ fast_log b2 = Ok r2 /\ r1 <= r2.
Proof.
  intros H12 H2. eexists; eexists.
  split; [apply fast_log_eq; unfold pattern; lia |]. split; [apply fast_log_eq; unfold pattern; lia |].
  pose proof ln2_float_close. pose proof ln2_pos.
  apply Rmult_le_compat_r; [lra |].
  assert (forall b, (0 <= b < 2147483648)%Z -> ((b / 8388608) mod 256 = b / 8388608)%Z) as HM.
  { intros b Hb. apply Z.mod_small. split; [apply Z.div_pos; lia | apply Z.div_lt_upper_bound; lia]. }
  rewrite !HM by lia.
  pose proof (Z.div_mod b1 8388608 ltac:(lia)) as D1. pose proof (Z.div_mod b2 8388608 ltac:(lia)) as D2.
  pose proof (Z.mod_pos_bound b1 8388608 ltac:(lia)). pose proof (Z.mod_pos_bound b2 8388608 ltac:(lia)).
  assert (b1 / 8388608 <= b2 / 8388608)%Z as HD by (apply Z.div_le_mono; lia).
  destruct (Z.eq_dec (b1 / 8388608) (b2 / 8388608)) as [E | N].
  - rewrite E. apply Rplus_le_compat_l.
    assert (b1 mod 8388608 / 512 <= b2 mod 8388608 / 512)%Z as HL by (apply Z.div_le_mono; lia).
    pose proof (man_small b1). pose proof (man_small b2).
    unfold log2t. change (2 ^ 14)%Z with 16384%Z. unfold Rdiv.
    apply Rmult_le_compat_r; [left; now apply Rinv_0_lt_compat |].
    apply IZR_le in HL. destruct HL as [HL | ->]; [| lra].
    assert (0 <= IZR (b1 mod 8388608 / 512)) by (apply IZR_le; lia).
    left. apply ln_increasing; lra.
  - pose proof (log2t_range _ (man_small b1)). pose proof (log2t_range _ (man_small b2)).
    assert (IZR (b1 / 8388608 - 127) + 1 <= IZR (b2 / 8388608 - 127)).
    { rewrite <- plus_IZR. apply IZR_le. lia. }
    lra.
Qed.

(** *** fast_lgamma *)
Local Open Scope Z_scope.
Lemma decode_not_nan b : pattern b -> ~ is_nan b -> float_of_bits b <> S754_nan.
Proof.
  intros Hb HN. unfold float_of_bits, is_nan in *.
  pose proof (Z.mod_pos_bound b 8388608 ltac:(lia)) as HM.
  destruct (Z.eqb_spec ((b / 8388608) mod 256) 255) as [E | E].
  - destruct (Z.eqb_spec (b mod 8388608) 0); [discriminate | tauto].
  - destruct (Z.eqb_spec ((b / 8388608) mod 256) 0).
    + destruct (b mod 8388608); discriminate.
    + destruct (b mod 8388608 + 8388608) eqn:K; [lia | discriminate | lia].
Qed.

(** Patterns that pass neither test and are not NaN have a small positive exponent. *)
Lemma in_range b lo_m lo_e : pattern b -> ~ is_nan b -> -149 < lo_e ->
  8388608 <= Zpos lo_m ->
  SFltb (float_of_bits b) (S754_finite false lo_m lo_e) = false ->
  SFleb f_2_32 (float_of_bits b) = false ->
  b < 2147483648 /\ lo_e + 150 <= b / 8388608 <= 158.
Proof.
  intros Hb HN HE HL H1 H2. unfold float_of_bits, is_nan, f_2_32 in *.
  pose proof (Z.mod_pos_bound b 8388608 ltac:(lia)) as HM.
  pose proof (Z.mod_pos_bound (b / 8388608) 256 ltac:(lia)) as HX.
  assert (b / 8388608 < 512) by (unfold pattern in Hb; apply Z.div_lt_upper_bound; lia).
  assert (0 <= b / 8388608) by (unfold pattern in Hb; apply Z.div_pos; lia).
  destruct (Z.leb_spec 2147483648 b) as [S | S].
  { exfalso. destruct (Z.eqb_spec ((b / 8388608) mod 256) 255) as [E | E].
    - destruct (Z.eqb_spec (b mod 8388608) 0); [cbn in H1; discriminate | tauto].
    - destruct (Z.eqb_spec ((b / 8388608) mod 256) 0).
      + destruct (b mod 8388608); cbn in H1; discriminate.
      + destruct (b mod 8388608 + 8388608) eqn:K; [lia | cbn in H1; discriminate | lia]. }
  assert (b / 8388608 < 256) by (apply Z.div_lt_upper_bound; lia).
  rewrite Z.mod_small in * by lia. split; [exact S |].
  destruct (Z.eqb_spec (b / 8388608) 255) as [E | E].
  - exfalso. destruct (Z.eqb_spec (b mod 8388608) 0); [cbn in H2; discriminate | tauto].
  - destruct (Z.eqb_spec (b / 8388608) 0) as [E0 | E0].
    + exfalso. destruct (b mod 8388608) as [| p | p]; [cbn in H1; discriminate | | lia].
      unfold SFltb, SFcompare in H1. destruct (Z.compare_spec (-149) lo_e); [lia | discriminate | lia].
    + destruct (b mod 8388608 + 8388608) as [| p | p] eqn:K; [lia | | lia].
      unfold SFltb, SFcompare in H1. unfold SFleb, SFcompare in H2.
      split.
      * destruct (Z.compare_spec (b / 8388608 - 150) lo_e); [lia | discriminate | lia].
      * destruct (Z.compare_spec 9 (b / 8388608 - 150)) as [C | C | C]; [| discriminate | lia].
        exfalso. change (Pcompare 8388608 p Eq) with (Pos.compare 8388608 p) in H2.
        destruct (Pos.compare_spec 8388608 p) as [L | L | L]; try discriminate.
        apply Pos2Z.pos_lt_pos in L. rewrite <- K in L. destruct HM as [HM _]. clear - L HM. lia.
Qed.

Lemma int_log2_normal b : b < 2147483648 -> 8388608 <= b ->
  int_log2 b = Ok (b / 8388608 - 127).
Proof.
  intros H1 H2. unfold int_log2, as_int. destruct (Z.ltb_spec b 2147483648); [| lia].
  rewrite Z.shiftr_div_pow2 by lia. change (2 ^ 23) with 8388608.
  assert (1 <= b / 8388608) by (apply Z.div_le_lower_bound; lia).
  destruct (Z.eqb_spec (b / 8388608) 0); [lia |]. reflexivity.
Qed.

Lemma zget_in {A} (l : list A) i : 0 <= i < Z.of_nat (length l) -> exists a, zget l i = Ok a.
Proof.
  intros H. unfold zget. destruct (Z.ltb_spec i 0); [lia |]. unfold vget.
  destruct (nth_error l (Z.to_nat i)) as [a |] eqn:E; [now exists a |].
  apply nth_error_None in E. lia.
Qed.

Lemma lgamma_safe b : pattern b -> ~ is_nan b -> exists a, fast_lgamma b = Ok a.
Proof.
  intros Hb HN. unfold fast_lgamma.
  destruct (SFltb (float_of_bits b) f_2_5) eqn:E1; [eexists; reflexivity |].
  destruct (SFleb f_2_32 (float_of_bits b)) eqn:E2; [eexists; reflexivity |]. cbn [orb].
  destruct (in_range b 10485760 (-22) Hb HN ltac:(lia) ltac:(lia) E1 E2) as [H1 H2].
  assert (8388608 <= b).
  { pose proof (Z.mul_div_le b 8388608 ltac:(lia)). lia. }
  rewrite int_log2_normal by assumption. cbn [obind].
  assert (length lgamma_approx_coeff5 = 198%nat) as L by reflexivity.
  destruct (zget_in lgamma_approx_coeff5 ((b / 8388608 - 127) * 6)) as (x5 & ->); [rewrite L; lia |]. cbn [obind].
  destruct (zget_in lgamma_approx_coeff5 ((b / 8388608 - 127) * 6 + 1)) as (x4 & ->); [rewrite L; lia |]. cbn [obind].
  destruct (zget_in lgamma_approx_coeff5 ((b / 8388608 - 127) * 6 + 2)) as (x3 & ->); [rewrite L; lia |]. cbn [obind].
  destruct (zget_in lgamma_approx_coeff5 ((b / 8388608 - 127) * 6 + 3)) as (x2 & ->); [rewrite L; lia |]. cbn [obind].
  destruct (zget_in lgamma_approx_coeff5 ((b / 8388608 - 127) * 6 + 4)) as (x1 & ->); [rewrite L; lia |]. cbn [obind].
  destruct (zget_in lgamma_approx_coeff5 ((b / 8388608 - 127) * 6 + 5)) as (x0 & ->); [rewrite L; lia |]. cbn [obind].
  eexists; reflexivity.
Qed.

Lemma lgamma_nu_safe b : pattern b -> ~ is_nan b -> exists a, fast_lgamma_nu b = Ok a.
Proof.
  intros Hb HN. unfold fast_lgamma_nu.
  destruct (SFltb (float_of_bits b) f_1_16) eqn:E1; [eexists; reflexivity |].
  destruct (SFleb f_2_32 (float_of_bits b)) eqn:E2; [eexists; reflexivity |]. cbn [orb].
  destruct (in_range b 8388608 (-27) Hb HN ltac:(lia) ltac:(lia) E1 E2) as [H1 H2].
  assert (8388608 <= b).
  { pose proof (Z.mul_div_le b 8388608 ltac:(lia)). lia. }
  rewrite int_log2_normal by assumption. cbn [obind].
  assert (length lgamma_nu_func_approx_coeff3 = 72%nat) as L by reflexivity.
  rewrite Z.quot_div_nonneg by lia.
  assert (0 <= (b / 8388608 - 127 + 4) / 2 <= 17) as HQ.
  { split; [apply Z.div_pos; lia |]. apply Z.lt_succ_r, Z.div_lt_upper_bound; lia. }
  set (p := (b / 8388608 - 127 + 4) / 2 * 4) in *. assert (0 <= p <= 68) by (unfold p; lia).
  destruct (zget_in lgamma_nu_func_approx_coeff3 (p + 3)) as (x0 & ->); [rewrite L; lia |]. cbn [obind].
  destruct (zget_in lgamma_nu_func_approx_coeff3 (p + 2)) as (x1 & ->); [rewrite L; lia |]. cbn [obind].
  destruct (zget_in lgamma_nu_func_approx_coeff3 (p + 1)) as (x2 & ->); [rewrite L; lia |]. cbn [obind].
  destruct (zget_in lgamma_nu_func_approx_coeff3 p) as (x3 & ->); [rewrite L; lia |]. cbn [obind].
  eexists; reflexivity.
Qed.

Lemma zget_high {A} (l : list A) i : Z.of_nat (length l) <= i -> zget l i = UB.
Proof.
  intros H. unfold zget. destruct (Z.ltb_spec i 0); [reflexivity |]. unfold vget.
  rewrite (proj2 (nth_error_None l (Z.to_nat i))); [reflexivity |]. lia.
Qed.

(** Every NaN reads outside the table. *)
Lemma nan_decode b : is_nan b -> float_of_bits b = S754_nan.
Proof.
  intros [A B]. unfold float_of_bits. rewrite A. cbn.
  destruct (Z.eqb_spec (b mod 8388608) 0); [contradiction | reflexivity].
Qed.

Lemma nan_log2 b : pattern b -> is_nan b -> exists c, int_log2 b = Ok c /\ (c = 128 \/ c = -128).
Proof.
  intros Hb [HA HB]. unfold pattern in Hb. unfold int_log2, as_int.
  assert (0 <= b / 8388608 < 512) by (split; [apply Z.div_pos; lia | apply Z.div_lt_upper_bound; lia]).
  assert (b / 8388608 = 255 \/ b / 8388608 = 511) as Hc.
  { pose proof (Z.div_mod (b / 8388608) 256 ltac:(lia)).
    assert (0 <= b / 8388608 / 256 < 2) by (split; [apply Z.div_pos; lia | apply Z.div_lt_upper_bound; lia]). lia. }
  destruct (Z.ltb_spec b 2147483648) as [L | L].
  - rewrite Z.shiftr_div_pow2 by lia. change (2 ^ 23) with 8388608.
    destruct Hc as [Hc | Hc].
    + rewrite Hc. cbn. exists 128. auto.
    + exfalso. pose proof (Z.mul_div_le b 8388608 ltac:(lia)). lia.
  - rewrite Z.shiftr_div_pow2 by lia. change (2 ^ 23) with 8388608.
    replace (b - 4294967296) with (b + (-512) * 8388608) by lia. rewrite Z.div_add by lia.
    destruct Hc as [Hc | Hc].
    + exfalso. pose proof (Z.mul_succ_div_gt b 8388608 ltac:(lia)). lia.
    + rewrite Hc. cbn. exists (-128). auto.
Qed.

Lemma lgamma_nan b : pattern b -> is_nan b -> fast_lgamma b = UB /\ fast_lgamma_nu b = UB.
Proof.
  intros Hb HN. unfold fast_lgamma, fast_lgamma_nu. rewrite (nan_decode b HN). cbn [SFltb SFleb SFcompare orb f_2_5 f_2_32 f_1_16].
  destruct (nan_log2 b Hb HN) as (c & -> & Hc). cbn [obind].
  destruct Hc as [-> | ->]; split; reflexivity.
Qed.

(** *** log_factorial_table *)
(** Bounds for ln(n+1) and ln(n!), in units of 1/scale. *)
Definition next_bounds (m : nat) (q : (Z * Z) * (Z * Z)) : (Z * Z) * (Z * Z) :=
  let '((l, h), (fl, fh)) := q in
  ((l + step_lo (Z.of_nat m + 1) 20, h + step_hi (Z.of_nat m + 1) 20), (fl + l, fh + h)).
Fixpoint fact_bounds (n : nat) : (Z * Z) * (Z * Z) :=
  match n with
  | O => ((0, 0), (0, 0))
  | S m => next_bounds m (fact_bounds m)
  end.

Lemma fact_bounds_ok n :
  let '((l, h), (fl, fh)) := fact_bounds n in
  (IZR l <= IZR scale * ln (INR (n + 1)) <= IZR h)%R /\
  (IZR fl <= IZR scale * ln (INR (fact n)) <= IZR fh)%R.
Proof.
  induction n as [| n IH]; cbn [fact_bounds]; unfold next_bounds.
  - cbn [Nat.add fact]. change (INR 1) with 1%R. rewrite ln_1. lra.
  - destruct (fact_bounds n) as [[l h] [fl fh]]. destruct IH as [[A B] [C D]].
    destruct (step_ok (Z.of_nat n + 1) 20 ltac:(lia) ltac:(lia)) as [E F].
    replace (IZR (Z.of_nat n + 1 + 1)) with (INR (S n + 1)) in E, F by (rewrite INR_IZR_INZ; f_equal; lia).
    replace (IZR (Z.of_nat n + 1)) with (INR (n + 1)) in E, F by (rewrite INR_IZR_INZ; f_equal; lia).
    rewrite !plus_IZR. split; [lra |].
    change (fact (S n)) with (S n * fact n)%nat. rewrite mult_INR.
    assert (0 < INR (S n))%R by (apply lt_0_INR; lia).
    assert (0 < INR (fact n))%R by (apply lt_0_INR, lt_O_fact).
    rewrite ln_mult by assumption. replace (S n) with (n + 1)%nat by lia. lra.
Qed.

(** |literal - ln n!| <= 10^-12 for one entry. *)
Definition entry_in (q : (Z * Z) * (Z * Z)) (p : Z * Z) : bool :=
  let '(_, (fl, fh)) := q in
  (snd p <=? 0) && (-20 <=? snd p) &&
  let v := fst p * 10 ^ (20 + snd p) in
  (v - fl <=? 100000000) && (fh - v <=? 100000000).
Definition entry_ok (n : nat) (p : Z * Z) : bool := entry_in (fact_bounds n) p.

Fixpoint entries (n : nat) (q : (Z * Z) * (Z * Z)) (t : list (Z * Z)) : bool :=
  match t with
  | [] => true
  | p :: t' => if entry_in q p then entries (S n) (next_bounds n q) t' else false
  end.

Lemma entries_ok t : forall n, entries n (fact_bounds n) t = true ->
  forall i p, nth_error t i = Some p -> entry_ok (n + i) p = true.
Proof.
  induction t as [| x t IH]; intros n H [| i] p Hp; cbn in Hp; try discriminate; cbn [entries] in H.
  - injection Hp as ->. rewrite Nat.add_0_r. unfold entry_ok.
    destruct (entry_in (fact_bounds n) p); [reflexivity | discriminate].
  - destruct (entry_in (fact_bounds n) x); [| discriminate].
    replace (n + S i)%nat with (S n + i)%nat by lia. eapply IH; [exact H | exact Hp].
Qed.

Lemma entry_sound n p : entry_ok n p = true ->
  (Rabs (literal p - ln (INR (fact n))) <= / 1000000000000)%R.
Proof.
  unfold entry_ok, entry_in. pose proof (fact_bounds_ok n) as H. destruct (fact_bounds n) as [[l h] [fl fh]].
  destruct H as [_ [A B]]. intros H.
  cbv zeta in H. apply andb_true_iff in H as [H K].
  apply andb_true_iff in H as [H1 H2]. apply andb_true_iff in K as [K1 K2].
  repeat match goal with K : (_ <=? _) = true |- _ => apply Z.leb_le in K end.
  assert (literal p * IZR scale = IZR (fst p * 10 ^ (20 + snd p)))%R as EL.
  { unfold literal, scale. rewrite mult_IZR. destruct (Z.leb_spec 0 (snd p)) as [L | L].
    - replace (snd p) with 0 by lia. rewrite Z.add_0_r. change (IZR (10 ^ 0)) with 1%R. ring.
    - replace (10 ^ 20) with (10 ^ (- snd p) * 10 ^ (20 + snd p))
        by (rewrite <- Z.pow_add_r by lia; f_equal; lia).
      rewrite mult_IZR. assert (0 < IZR (10 ^ (- snd p)))%R by (apply IZR_lt, Z.pow_pos_nonneg; lia).
      field. lra. }
  set (v := fst p * 10 ^ (20 + snd p)) in *.
  assert (IZR v - IZR fl <= 100000000)%R by (rewrite <- minus_IZR; apply IZR_le; assumption).
  assert (IZR fh - IZR v <= 100000000)%R by (rewrite <- minus_IZR; apply IZR_le; assumption).
  unfold scale in *. change (10 ^ 20) with 100000000000000000000 in *.
  apply Rabs_le. lra.
Qed.

Lemma table_checked : entries 0 (fact_bounds 0) log_factorial_table = true.
Proof. vm_compute. reflexivity. Qed.

Lemma table_entry n : 0 <= n < 64 -> exists p, zget log_factorial_table n = Ok p /\
  (Rabs (literal p - ln (INR (fact (Z.to_nat n)))) <= / 1000000000000)%R.
Proof.
  intros Hn. destruct (zget_in log_factorial_table n) as (p & E); [cbn [length log_factorial_table]; lia |].
  exists p. split; [exact E |]. apply entry_sound.
  unfold zget in E. destruct (Z.ltb_spec n 0); [lia |]. unfold vget in E.
  destruct (nth_error log_factorial_table (Z.to_nat n)) as [x |] eqn:EN; [| discriminate].
  injection E as ->. exact (entries_ok log_factorial_table 0 table_checked (Z.to_nat n) p EN).
Qed.

(** The integer log2 on every positive float. *)
Lemma log_table t : 1 <= t <= 255 -> zget LogTable256 t = Ok (Z.log2 t).
Proof.
  intros H. assert (forallb (fun n => match zget LogTable256 (Z.of_nat n) with Ok l => l =? Z.log2 (Z.of_nat n) | _ => false end) (seq 1 255) = true) as C by (vm_compute; reflexivity).
  rewrite forallb_forall in C. specialize (C (Z.to_nat t) ltac:(apply in_seq; lia)). rewrite Z2Nat.id in C by lia.
  destruct (zget LogTable256 t); [| discriminate | discriminate]. apply Z.eqb_eq in C. now subst.
Qed.
Lemma int_log2_subnormal b : 0 < b < 8388608 -> int_log2 b = Ok (Z.log2 b - 149).
Proof.
  intros H. unfold int_log2, as_int. destruct (Z.ltb_spec b 2147483648) as [_ | ?]; [| lia]. cbv zeta.
  assert (forall k, 0 <= k -> Z.shiftr b k < 8388608 /\ 0 <= Z.shiftr b k) as S.
  { intros k Hk. rewrite Z.shiftr_div_pow2 by lia. pose proof (Z.pow_pos_nonneg 2 k ltac:(lia) Hk). split; [| apply Z.div_pos; lia].
    apply Z.le_lt_trans with b; [apply Z.div_le_upper_bound; nia | lia]. }
  assert (Z.shiftr b 23 = 0) as -> by (rewrite Z.shiftr_div_pow2 by lia; apply Z.div_small; change (2 ^ 23) with 8388608; lia).
  cbn [Z.eqb negb]. unfold u32. rewrite !Z.mod_small by (split; [apply S; lia | eapply Z.lt_trans; [apply S; lia | lia]]).
  destruct (Z.eqb_spec (Z.shiftr b 16) 0) as [E16 | E16]; cbn [negb].
  2: { rewrite log_table; [cbn [obind]; f_equal; rewrite Z.log2_shiftr by lia |].
    - assert (16 <= Z.log2 b); [| lia]. rewrite Z.shiftr_div_pow2 in E16 by lia. apply Z.log2_le_pow2; [lia |].
      destruct (Z.lt_ge_cases b (2 ^ 16)) as [L | L]; [rewrite Z.div_small in E16 by lia; lia | exact L].
    - destruct (S 16 ltac:(lia)). split; [lia |]. rewrite Z.shiftr_div_pow2 by lia. change (2 ^ 16) with 65536.
      apply Z.lt_succ_r. apply Z.div_lt_upper_bound; lia. }
  rewrite Z.shiftr_div_pow2 in E16 by lia. change (2 ^ 16) with 65536 in E16. apply Z.div_small_iff in E16; [| lia].
  destruct (Z.eqb_spec (Z.shiftr b 8) 0) as [E8 | E8]; cbn [negb].
  2: { rewrite log_table; [cbn [obind]; f_equal; rewrite Z.log2_shiftr by lia |].
    - assert (8 <= Z.log2 b); [| lia]. rewrite Z.shiftr_div_pow2 in E8 by lia. apply Z.log2_le_pow2; [lia |].
      destruct (Z.lt_ge_cases b (2 ^ 8)) as [L | L]; [rewrite Z.div_small in E8 by lia; lia | exact L].
    - destruct (S 8 ltac:(lia)). split; [lia |]. rewrite Z.shiftr_div_pow2 by lia. change (2 ^ 8) with 256.
      apply Z.lt_succ_r. apply Z.div_lt_upper_bound; lia. }
  rewrite Z.shiftr_div_pow2 in E8 by lia. change (2 ^ 8) with 256 in E8. apply Z.div_small_iff in E8; [| lia].
  rewrite log_table by lia. reflexivity.
Qed.
Lemma powerRZ_nat n : 0 <= n -> powerRZ 2 n = IZR (2 ^ n).
Proof. intros H. rewrite <- (Z2Nat.id n) by lia. rewrite <- pow_powerRZ, <- pow_IZR. reflexivity. Qed.
Lemma int_log2_exact b : 0 < b < 2139095040 -> exists c, int_log2 b = Ok c /\
  (powerRZ 2 c <= positive_value b < powerRZ 2 (c + 1))%R.
Proof.
  intros H. unfold positive_value. destruct (Z.ltb_spec b 8388608) as [L | L].
  - exists (Z.log2 b - 149). split; [apply int_log2_subnormal; lia |].
    destruct (Z.log2_spec b ltac:(lia)) as [A B]. pose proof (Z.log2_nonneg b).
    replace (Z.log2 b - 149 + 1) with (Z.log2 b + 1 + -149) by lia. unfold Z.sub. rewrite !(powerRZ_add 2) with (m := -149) by lra.
    replace (powerRZ 2 (-(149))) with (powerRZ 2 (-149)) by reflexivity.
    assert (0 < powerRZ 2 (-149))%R by (apply powerRZ_lt; lra). rewrite (powerRZ_nat (Z.log2 b)), (powerRZ_nat (Z.log2 b + 1)) by lia.
    split; [apply Rmult_le_compat_r; [lra | apply IZR_le; exact A] | apply Rmult_lt_compat_r; [lra | apply IZR_lt; exact B]].
  - exists (b / 8388608 - 127). split; [apply int_log2_normal; lia |]. unfold normal_value. rewrite powerRZ_add by lra. rewrite powerRZ_1.
    pose proof (Z.mod_pos_bound b 8388608 ltac:(lia)) as [M1 M2]. apply IZR_le in M1. apply IZR_lt in M2.
    assert (0 < powerRZ 2 (b / 8388608 - 127))%R as P by (apply powerRZ_lt; lra).
    set (K := powerRZ 2 (b / 8388608 - 127)) in *. clearbody K. set (f := IZR (b mod 8388608)) in *. clearbody f. split.
    + rewrite <- (Rmult_1_l K) at 1. apply Rmult_le_compat_r; lra.
    + rewrite (Rmult_comm K 2). apply Rmult_lt_compat_r; lra.
Qed.

(** The rows answered. *)
Lemma normal_decode b : positive_normal b -> float_of_bits b = S754_finite false (Z.to_pos (b mod 8388608 + 8388608)) (b / 8388608 - 150).
Proof.
  intros [H1 H2]. unfold float_of_bits. pose proof (Z.mod_pos_bound b 8388608 ltac:(lia)).
  assert (1 <= b / 8388608) by (apply Z.div_le_lower_bound; lia). assert (b / 8388608 < 255) by (apply Z.div_lt_upper_bound; lia).
  destruct (Z.leb_spec 2147483648 b); [lia |]. rewrite Z.mod_small with (a := b / 8388608) by lia.
  destruct (Z.eqb_spec (b / 8388608) 255); [lia |]. destruct (Z.eqb_spec (b / 8388608) 0); [lia |].
  destruct (b mod 8388608 + 8388608) as [| p | p] eqn:K; [lia | reflexivity | lia].
Qed.
Lemma below_pattern b lo : positive_normal b -> positive_normal lo -> lo <= b -> SFltb (float_of_bits b) (float_of_bits lo) = false.
Proof.
  intros Hb Hl H. rewrite (normal_decode b Hb), (normal_decode lo Hl). unfold SFltb, SFcompare.
  pose proof (Z.div_mod b 8388608 ltac:(lia)) as D1. pose proof (Z.div_mod lo 8388608 ltac:(lia)) as D2.
  pose proof (Z.mod_pos_bound b 8388608 ltac:(lia)). pose proof (Z.mod_pos_bound lo 8388608 ltac:(lia)).
  destruct (Z.compare_spec (b / 8388608 - 150) (lo / 8388608 - 150)) as [C | C | C]; [| exfalso; lia | reflexivity].
  change (Pcompare ?a ?c Eq) with (Pos.compare a c). rewrite Pos2Z.inj_compare, !Z2Pos.id by lia.
  destruct (Z.compare_spec (b mod 8388608 + 8388608) (lo mod 8388608 + 8388608)); [reflexivity | exfalso; lia | reflexivity].
Qed.
Lemma above_pattern b hi : positive_normal b -> positive_normal hi -> b < hi -> SFleb (float_of_bits hi) (float_of_bits b) = false.
Proof.
  intros Hb Hl H. rewrite (normal_decode b Hb), (normal_decode hi Hl). unfold SFleb, SFcompare.
  pose proof (Z.div_mod b 8388608 ltac:(lia)) as D1. pose proof (Z.div_mod hi 8388608 ltac:(lia)) as D2.
  pose proof (Z.mod_pos_bound b 8388608 ltac:(lia)). pose proof (Z.mod_pos_bound hi 8388608 ltac:(lia)).
  destruct (Z.compare_spec (hi / 8388608 - 150) (b / 8388608 - 150)) as [C | C | C]; [| exfalso; lia | reflexivity].
  change (Pcompare ?a ?c Eq) with (Pos.compare a c). rewrite Pos2Z.inj_compare, !Z2Pos.id by lia.
  destruct (Z.compare_spec (hi mod 8388608 + 8388608) (b mod 8388608 + 8388608)); [exfalso; lia | exfalso; lia | reflexivity].
Qed.
Lemma lgamma_row b : 1075838976 <= b < 1333788672 ->
  fast_lgamma b = Ok (Poly (map literal (rev (firstn 6 (skipn (Z.to_nat ((b / 8388608 - 127) * 6)) lgamma_approx_coeff5))))).
Proof.
  intros H. unfold fast_lgamma. assert (positive_normal b) as P by (unfold positive_normal; lia).
  change f_2_5 with (float_of_bits 1075838976). change f_2_32 with (float_of_bits 1333788672).
  rewrite (below_pattern b 1075838976), (above_pattern b 1333788672) by (unfold positive_normal; lia). cbn [orb].
  rewrite int_log2_normal by lia. cbn [obind].
  assert (1 <= b / 8388608 - 127 <= 31) as R.
  { assert (128 <= b / 8388608) by (apply Z.div_le_lower_bound; lia). assert (b / 8388608 < 159) by (apply Z.div_lt_upper_bound; lia). lia. }
  set (c := b / 8388608 - 127) in *. clearbody c. clear - R.
  rewrite <- (Z2Nat.id c) by lia. assert (1 <= Z.to_nat c <= 31)%nat as R' by lia. revert R'. generalize (Z.to_nat c). clear. intros n R.
  do 32 (destruct n as [|n]; [try lia; reflexivity |]). lia.
Qed.
Lemma lgamma_nu_row b : 1031798784 <= b < 1333788672 ->
  fast_lgamma_nu b = Ok (Poly (map literal (rev (firstn 4 (skipn (Z.to_nat ((b / 8388608 - 123) / 2 * 4)) lgamma_nu_func_approx_coeff3))))).
Proof.
  intros H. unfold fast_lgamma_nu. assert (positive_normal b) as P by (unfold positive_normal; lia).
  change f_1_16 with (float_of_bits 1031798784). change f_2_32 with (float_of_bits 1333788672).
  rewrite (below_pattern b 1031798784), (above_pattern b 1333788672) by (unfold positive_normal; lia). cbn [orb].
  rewrite int_log2_normal by lia. cbn [obind].
  assert (0 <= b / 8388608 - 123 <= 35) as R.
  { assert (123 <= b / 8388608) by (apply Z.div_le_lower_bound; lia). assert (b / 8388608 < 159) by (apply Z.div_lt_upper_bound; lia). lia. }
  replace (b / 8388608 - 127 + 4) with (b / 8388608 - 123) by lia.
  set (c := b / 8388608 - 123) in *. clearbody c. clear - R.
  rewrite <- (Z2Nat.id c) by lia. assert (Z.to_nat c <= 35)%nat as R' by lia. revert R'. generalize (Z.to_nat c). clear. intros n R.
  do 36 (destruct n as [|n]; [reflexivity |]). lia.
Qed.
