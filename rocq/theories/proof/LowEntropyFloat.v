(** LowEntropy::score_add_value in single precision. *)
From Coq Require Import List Reals Lra Lia ZArith Bool.
From Flocq Require Import Core BinarySingleNaN Binary Bits.
From Verif.model Require Import Base Num Sampler FastExp FloatNum FastLog Special.
From Verif.spec Require Import SpecialSpec LogSpec LowEntropyFloatSpec.
From Verif.proof Require Import LnBounds SpecialProof FastExpProof FloatScoresProof FloatNichProof FastLogProof FloatRel FloatPredictive FloatStirlingApprox FloatCountScores.
From Verif.proof Require LowEntropyNormal.
Import ListNotations.
Local Open Scope R_scope.

(** fast_log on [1, 2): the entry of the table, almost exactly. *)
Definition index (x : binary32) : Z := (bits_of_b32 x mod 8388608 / 512)%Z.
Lemma log_unit log2 x : good_log2 log2 -> fin x = true -> bpow radix2 (-126) <= b2r x -> (bits_of_b32 x / 8388608 = 127)%Z ->
  fin (fast_log32 log2 x) = true /\ Rabs (b2r (fast_log32 log2 x) - ln (1 + IZR (index x) / 16384)) <= 2 / 10000000 /\
  0 <= ln (b2r x) - ln (1 + IZR (index x) / 16384) <= / 16384.
Proof.
  intros HL F L E0. destruct (normal_bits x F L) as [PN V]. unfold fast_log32, fast_log_run, index. destruct (table32 log2) as (t & -> & Ht). cbn [obind].
  unfold fastlog32. set (b := bits_of_b32 x) in *. pose proof (normal_pattern b PN) as Pb.
  unfold fastlog_exp. rewrite field_exp, field_man by (assumption || lia). change (2 ^ (23 - 14))%Z with 512%Z.
  destruct (split_log b PN) as [Ee Sp]. rewrite Ee. rewrite V in Sp. pose proof (man_small b) as Hm.
  change (2 ^ 23)%Z with 8388608%Z. rewrite E0 in *. change (127 - 127)%Z with 0%Z in *. change (0 + 127 - 127)%Z with 0%Z.
  set (man := (b mod 8388608 / 512)%Z) in *. rewrite Ht by exact Hm. cbn [obind or_nan].
  destruct (arg_val (Z.to_nat man) ltac:(lia)) as [Va Fa].
  assert (INR (Z.to_nat man) = IZR man) as Im by (rewrite INR_IZR_INZ, Z2Nat.id by lia; reflexivity). rewrite Im in Va.
  assert (0 <= IZR man < 16384) as Rm by (split; [apply IZR_le; lia | apply (IZR_lt man 16384); lia]).
  destruct (HL (fastlog_arg 14 (Z.to_nat man)) Fa ltac:(rewrite Va; lra)) as [Ft At]. rewrite Va in At.
  pose proof (log2t_range man Hm) as Rt. pose proof ln2_lo as Lo. pose proof ln2_hi as Hi.
  assert (log2t 14 man * ln 2 = ln (1 + IZR man / 16384)) as El by (unfold log2t; change (IZR (2 ^ 14)) with 16384; field; lra).
  change (ln (1 + IZR man / 16384) / ln 2) with (log2t 14 man) in At. rewrite Rplus_0_l, El in Sp.
  set (l := log2t 14 man) in *. set (T := log2 (fastlog_arg 14 (Z.to_nat man))) in *. rewrite <- El in *.
  destruct (int_ok 0 ltac:(lia)) as [Ve Fe]. apply Rabs_le_inv in At.
  destruct (plus_ok (float_of_int 0) T Fe Ft) as [Vs Fs].
  { rewrite Ve. apply small127. apply Rabs_le. lra. }
  rewrite Ve, Rplus_0_l, rnd_same in Vs. destruct ln2_val as [Vl Fl]. unfold ln2_float in Vl.
  set (s := b32_plus mode_NE (float_of_int 0) T) in *. clearbody s.
  assert (Rabs (b2r s * b2r b_ln2) <= 1) as A2 by (rewrite Vl, Vs; apply Rabs_le; lra).
  destruct (mult_ok s b_ln2 Fs Fl) as [Vr Fr]; [apply small127; lra |].
  pose proof (rnd_err (b2r s * b2r b_ln2)) as R2. rewrite <- Vr in R2. unfold u24 in R2. pose proof eta32_pos as Eta.
  split; [exact Fr |]. split; [| exact Sp]. set (r := b2r (b32_mult mode_NE s b_ln2)) in *. clearbody r.
  assert (Rabs (r - b2r s * b2r b_ln2) <= 7 / 100000000) as R2' by lra. apply Rabs_le_inv in R2'. rewrite Vl, Vs in R2'.
  assert (Rabs (b2r T * (11629080 / 16777216) - l * ln 2) <= 5 / 100000000) as R3; [| apply Rabs_le_inv in R3; apply Rabs_le; lra].
  replace (b2r T * (11629080 / 16777216) - l * ln 2) with ((b2r T - l) * (11629080 / 16777216) + l * (11629080 / 16777216 - ln 2)) by ring.
  eapply Rle_trans; [apply Rabs_triang |]. rewrite !Rabs_mult.
  assert (Rabs (b2r T - l) <= / 16777216) by (apply Rabs_le; lra).
  assert (Rabs l <= 1) by (apply Rabs_le; lra).
  assert (Rabs (11629080 / 16777216 - ln 2) <= 2 / 1000000000) by (apply Rabs_le; lra).
  rewrite (Rabs_pos_eq (11629080 / 16777216)) by lra.
  assert (Rabs l * Rabs (11629080 / 16777216 - ln 2) <= 1 * (2 / 1000000000)) by (apply Rmult_le_compat; try apply Rabs_pos; assumption).
  lra.
Qed.
Lemma unit_exponent x : fin x = true -> 1 <= b2r x < 2 -> (bits_of_b32 x / 8388608 = 127)%Z.
Proof.
  intros F H. assert (bpow radix2 (-126) <= b2r x) as L by (apply Rle_trans with (bpow radix2 0); [apply bpow_le; lia | cbn; lra]).
  destruct (normal_bits x F L) as [PN V]. rewrite <- V in H. unfold normal_value in H.
  pose proof (Z.mod_pos_bound (bits_of_b32 x) 8388608 ltac:(lia)) as Mo. set (m := (bits_of_b32 x mod 8388608)%Z) in *.
  set (k := (bits_of_b32 x / 8388608)%Z) in *.
  assert (0 <= IZR m / 8388608 < 1) as Hm.
  { assert (0 <= IZR m < 8388608) by (split; [apply IZR_le; lia | apply IZR_lt; lia]). lra. }
  change (powerRZ 2 (k - 127)) with (powerRZ (IZR radix2) (k - 127)) in H. rewrite <- bpow_powerRZ in H.
  destruct (Z.lt_trichotomy k 127) as [E | [E | E]]; [exfalso | exact E | exfalso].
  - assert (bpow radix2 (k - 127) <= / 2) as B by (apply (bpow_le radix2 _ (-1)); lia). pose proof (bpow_gt_0 radix2 (k - 127)).
    assert ((1 + IZR m / 8388608) * bpow radix2 (k - 127) < 2 * / 2); [| lra].
    apply Rlt_le_trans with (2 * bpow radix2 (k - 127)); [apply Rmult_lt_compat_r; lra | lra].
  - assert (2 <= bpow radix2 (k - 127)) as B by (apply (bpow_le radix2 1); lia).
    assert (1 * 2 <= (1 + IZR m / 8388608) * bpow radix2 (k - 127)); [apply Rmult_le_compat; lra | lra].
Qed.

Lemma gain_eq g : (1 <= g)%Z -> le_gain g = IZR g * ln ((IZR g + 1) / IZR g) + ln (IZR g + 1).
Proof.
  intros H. unfold le_gain. assert (1 <= IZR g) as P by (apply (IZR_le 1); lia).
  assert (0 < IZR (g ^ g)) as A by (apply IZR_lt, Z.pow_pos_nonneg; lia).
  assert (0 < IZR ((g + 1) ^ (g + 1))) as B by (apply IZR_lt, Z.pow_pos_nonneg; lia).
  assert (forall a b, 0 < a -> 0 < b -> ln (a / b) = ln a - ln b) as D.
  { intros a b Ha Hb. unfold Rdiv. rewrite ln_mult by (try assumption; now apply Rinv_0_lt_compat). rewrite ln_Rinv by assumption. ring. }
  rewrite !D by lra. rewrite !LowEntropyNormal.ln_zpow by lia. rewrite !plus_IZR. ring.
Qed.
Lemma gain_slope X : 1 <= X -> 0 <= X * ln ((X + 1) / X) <= 1 /\ X / (X + 1) <= X * ln ((X + 1) / X).
Proof.
  intros H. assert (0 < (X + 1) / X) as P by (apply Rdiv_lt_0_compat; lra).
  pose proof (ln_sub 1 ((X + 1) / X) ltac:(lra) P) as A. pose proof (ln_sub ((X + 1) / X) 1 P ltac:(lra)) as B. rewrite ln_1 in A, B.
  assert (X * (((X + 1) / X - 1) / 1) = 1) as EA by (field; lra).
  assert (X * ((1 - (X + 1) / X) / ((X + 1) / X)) = - (X / (X + 1))) as EB by (field; lra).
  assert (X * (ln ((X + 1) / X) - 0) <= 1) by (apply Rle_trans with (X * (((X + 1) / X - 1) / 1)); [apply Rmult_le_compat_l; lra | lra]).
  assert (X * (0 - ln ((X + 1) / X)) <= - (X / (X + 1))) by (apply Rle_trans with (X * ((1 - (X + 1) / X) / ((X + 1) / X))); [apply Rmult_le_compat_l; lra | lra]).
  assert (0 <= X / (X + 1)) by (apply Rmult_le_pos; [lra | left; apply Rinv_0_lt_compat; lra]). split; [split |]; lra.
Qed.

(** The last two operations. *)
Lemma sum_close (r t fg : binary32) X L T : fin r = true -> fin t = true -> fin fg = true -> b2r fg = X -> 1 <= X <= 10000 ->
  0 <= X * L <= 1 -> 0 <= T <= 10 ->
  -13 / 1000000 - X * (33 / 100000000) <= X * (L - b2r r) <= 14 / 1000000 + X * (/ 16384 + 33 / 100000000) ->
  -13 / 1000000 <= T - b2r t <= 75 / 1000000 ->
  fin (b32_plus mode_NE (b32_mult mode_NE r fg) t) = true /\
  - / 10000 - X / 2000000 <= X * L + T - b2r (b32_plus mode_NE (b32_mult mode_NE r fg) t) <= / 10000 + X / 16000.
Proof.
  intros Fr Fl Fg Eg R Sl Ls Hr Hl.
  assert (X * (L - b2r r) = X * L - b2r r * X) as E by ring. rewrite E in Hr. set (K := X * L) in *. clearbody K.
  assert (Rabs (b2r r * b2r fg) <= 2) as M1 by (rewrite Eg; apply Rabs_le; lra).
  destruct (mult_ok r fg Fr Fg) as [Vm Fm]; [apply small127; lra |].
  pose proof (rnd_err (b2r r * b2r fg)) as R1. rewrite <- Vm, Eg in R1. rewrite Eg in M1. pose proof eta32_pos as Eta. unfold u24 in R1.
  set (p := b32_mult mode_NE r fg) in *. clearbody p.
  assert (Rabs (b2r p - b2r r * X) <= 12 / 100000000) as R1' by lra. apply Rabs_le_inv in R1'. apply Rabs_le_inv in M1.
  assert (Rabs (b2r p + b2r t) <= 13) as M2 by (apply Rabs_le; lra).
  destruct (plus_ok p t Fm Fl) as [Vs Fs]; [apply small127; lra |].
  pose proof (rnd_err (b2r p + b2r t)) as R2. rewrite <- Vs in R2. unfold u24 in R2. split; [exact Fs |].
  set (s := b32_plus mode_NE p t) in *. clearbody s. assert (Rabs (b2r s - (b2r p + b2r t)) <= 8 / 10000000) as R2' by lra. apply Rabs_le_inv in R2'. lra.
Qed.
Lemma sum_round (r t fg : binary32) X : fin r = true -> fin t = true -> fin fg = true -> b2r fg = X -> Rabs (b2r r * X) <= 2 -> Rabs (b2r t) <= 11 ->
  Rabs (b2r (b32_plus mode_NE (b32_mult mode_NE r fg) t) - (b2r r * X + b2r t)) <= 2 / 1000000.
Proof.
  intros Fr Fl Fg Eg M1 Ht. rewrite <- Eg in M1.
  destruct (mult_ok r fg Fr Fg) as [Vm Fm]; [apply small127; lra |].
  pose proof (rnd_err (b2r r * b2r fg)) as R1. rewrite <- Vm, Eg in R1. rewrite Eg in M1. pose proof eta32_pos as Eta. unfold u24 in R1.
  set (p := b32_mult mode_NE r fg) in *. clearbody p.
  assert (Rabs (b2r p - b2r r * X) <= 12 / 100000000) as R1' by lra. apply Rabs_le_inv in R1'. apply Rabs_le_inv in M1. apply Rabs_le_inv in Ht.
  assert (Rabs (b2r p + b2r t) <= 14) as M2 by (apply Rabs_le; lra).
  destruct (plus_ok p t Fm Fl) as [Vs Fs]; [apply small127; lra |].
  pose proof (rnd_err (b2r p + b2r t)) as R2. rewrite <- Vs in R2. unfold u24 in R2.
  set (s := b32_plus mode_NE p t) in *. clearbody s. assert (Rabs (b2r s - (b2r p + b2r t)) <= 9 / 10000000) as R2' by lra. apply Rabs_le_inv in R2'. apply Rabs_le. lra.
Qed.
Lemma dassert_true dl l : dassert_at dl l true = Ok tt.
Proof. unfold dassert_at. now destruct (_ <=? _)%nat. Qed.

Section S.
  Variables (tbl : list Z) (lit : Z -> Z -> binary32) (log2 : binary32 -> binary32)
    (lgam lgam_nu : binary32 -> binary32) (lfact : Z -> binary32) (sq : binary32 -> binary32) (pw : binary32 -> binary32 -> binary32).
  Hypothesis G : good_log2 log2.
  Let NB : Num binary32 := NumB tbl lit (fast_log32 log2) lgam lgam_nu lfact sq pw.

  (** The two branches for a group that is not empty. *)
  Definition small_score (g : Z) : binary32 :=
    let bigger := b32_plus mode_NE (float_of_int 1) (float_of_int g) in
    b32_plus mode_NE (b32_mult mode_NE (fast_log32 log2 (b32_div mode_NE bigger (float_of_int g))) (float_of_int g)) (fast_log32 log2 bigger).
  Definition large_score (g : Z) : binary32 :=
    b32_plus mode_NE (float_of_int 1) (fast_log32 log2 (b32_plus mode_NE (float_of_int 1) (float_of_int g))).
  Lemma add_runs dl dataset g k n e : (1 <= g)%Z -> (k <= n < dataset)%Z -> (0 < e)%Z ->
    le_score_add (N:=NB) dl dataset g k n e = Ok (if (10000 <? g)%Z then large_score g else small_score g).
  Proof.
    intros Hg Hn He. unfold le_score_add, large_score, small_score.
    replace (n <? dataset)%Z with true by (symmetry; apply Z.ltb_lt; lia). replace (0 <? e)%Z with true by (symmetry; apply Z.ltb_lt; lia).
    replace (k <=? n)%Z with true by (symmetry; apply Z.leb_le; lia). replace (g =? 0)%Z with false by (symmetry; apply Z.eqb_neq; lia).
    rewrite !dassert_true. cbn [obind nadd nmul ndiv nof nlog NB NumB]. destruct (10000 <? g)%Z; reflexivity.
  Qed.

  Lemma add_small dl dataset g k n e : (1 <= g <= 10000)%Z -> (k <= n < dataset)%Z -> (0 < e)%Z ->
    le_score_add (N:=NB) dl dataset g k n e = Ok (small_score g).
  Proof. intros Hg Hn He. rewrite add_runs by lia. destruct (Z.ltb_spec 10000 g); [lia | reflexivity]. Qed.

  Lemma bigger_exact g : (1 <= g <= 10000)%Z ->
    fin (b32_plus mode_NE (float_of_int 1) (float_of_int g)) = true /\ b2r (b32_plus mode_NE (float_of_int 1) (float_of_int g)) = IZR g + 1.
  Proof.
    intros H. destruct (int_ok 1 ltac:(lia)) as [E1 F1]. destruct (int_ok g ltac:(lia)) as [Eg Fg]. destruct (int_ok (g + 1) ltac:(lia)) as [Es Fs].
    assert (1 <= IZR g <= 10000) as R by (split; [apply (IZR_le 1) | apply (IZR_le g)]; lia).
    destruct (plus_ok (float_of_int 1) (float_of_int g) F1 Fg) as [V F]; [rewrite E1, Eg; apply small127; apply Rabs_le; lra |].
    split; [exact F |]. rewrite V, E1, Eg. replace (1 + IZR g) with (b2r (float_of_int (g + 1))) by (rewrite Es, plus_IZR; ring). rewrite rnd_same, Es, plus_IZR. ring.
  Qed.
  Lemma log_est k x X : near k x X -> usual X -> k <= 8 -> fin (fast_log32 log2 x) = true /\ -13 / 1000000 <= ln X - b2r (fast_log32 log2 x) <= 75 / 1000000.
  Proof. intros N U K. destruct (near_log log2 k x X G N U) as [F B]. split; [exact F |]. destruct N as (_ & _ & _ & K0 & _). unfold log_band, e23 in B. lra. Qed.
  Lemma small_usual X : / 10 <= X <= 10000000000 -> usual X.
  Proof. intros H. split; [apply Rle_trans with (bpow radix2 (-4)) | apply Rle_trans with (bpow radix2 34)]; try (apply bpow_le; lia); [change (bpow radix2 (-4)) with (/ 16) | change (bpow radix2 34) with 17179869184]; lra. Qed.
  Lemma ln_small X : 1 <= X <= 16384 -> 0 <= ln X <= 10.
  Proof.
    intros H. pose proof ln2_hi. split; [rewrite <- ln_1; apply ln_le'; lra |]. apply Rle_trans with (ln (2 ^ 14)); [apply ln_le'; lra |].
    rewrite ln_pow by lra. cbn [INR]. lra.
  Qed.

  Lemma ratio_log g : (1 <= g <= 10000)%Z ->
    fin (fast_log32 log2 (b32_div mode_NE (b32_plus mode_NE (float_of_int 1) (float_of_int g)) (float_of_int g))) = true /\
    -13 / 1000000 - IZR g * (33 / 100000000) <= IZR g * (ln ((IZR g + 1) / IZR g) - b2r (fast_log32 log2 (b32_div mode_NE (b32_plus mode_NE (float_of_int 1) (float_of_int g)) (float_of_int g)))) <= 14 / 1000000 + IZR g * (/ 16384 + 33 / 100000000).
  Proof.
    intros H. set (q := b32_div mode_NE (b32_plus mode_NE (float_of_int 1) (float_of_int g)) (float_of_int g)). destruct (bigger_exact g H) as [Fb Eb]. destruct (int_ok g ltac:(lia)) as [Eg Fg].
    assert (1 <= IZR g <= 10000) as R by (split; [apply (IZR_le 1) | apply (IZR_le g)]; lia).
    assert (0 < / IZR g <= 1) as I by (split; [apply Rinv_0_lt_compat; lra | rewrite <- Rinv_1; apply Rinv_le_contravar; lra]).
    assert ((IZR g + 1) / IZR g = 1 + / IZR g) as EQ by (field; lra).
    pose proof (near_self _ Fb ltac:(lra)) as Nb. rewrite Eb in Nb. pose proof (near_self _ Fg ltac:(lra)) as Ng. rewrite Eg in Ng.
    assert (usual ((IZR g + 1) / IZR g)) as U by (apply small_usual; lra).
    pose proof (near_div 0 0 _ _ _ _ Nb Ng ltac:(lra) U) as Nq. fold q in Nq.
    destruct (Z.eq_dec g 1) as [-> | Hg].
    - destruct (near_log log2 _ q _ G Nq U) as [F B]. split; [exact F |]. unfold log_band, e23 in B. lra.
    - assert (2 <= IZR g) as R2 by (apply (IZR_le 2); lia).
      assert (/ IZR g <= / 2) as I2 by (apply Rinv_le_contravar; lra).
      destruct (div_ok _ (float_of_int g) Fb ltac:(lra)) as [Vq Fq]; [rewrite Eb, Eg, EQ; apply small127; apply Rabs_le; lra |]. fold q in Vq, Fq. rewrite Eb, Eg in Vq.
      assert (1 <= b2r q < 2) as Hq.
      { rewrite Vq, EQ. split.
        - destruct (int_ok 1 ltac:(lia)) as [E1 _]. rewrite <- E1 at 1. rewrite <- rnd_same. apply rnd_le. rewrite E1. lra.
        - pose proof (rnd_err (1 + / IZR g)) as E. rewrite (Rabs_pos_eq (1 + _)) in E by lra. pose proof eta32_pos. unfold u24 in E. apply Rabs_le_inv in E. lra. }
      destruct (log_unit log2 q G Fq) as (F & A & B).
      { apply Rle_trans with (bpow radix2 0); [apply bpow_le; lia | cbn; lra]. }
      { now apply unit_exponent. }
      split; [exact F |]. destruct Nq as (_ & _ & _ & _ & C). unfold e23 in C. apply Rabs_le_inv in A, C.
      set (L := ln ((IZR g + 1) / IZR g)) in *. set (r := b2r (fast_log32 log2 q)) in *.
      assert (- (33 / 100000000) <= L - r <= / 16384 + 33 / 100000000) as D by lra.
      split; [apply Rle_trans with (IZR g * - (33 / 100000000)); [lra | apply Rmult_le_compat_l; lra] |].
      apply Rle_trans with (IZR g * (/ 16384 + 33 / 100000000)); [apply Rmult_le_compat_l; lra | lra].
  Qed.

  Lemma small_close g : (1 <= g <= 10000)%Z ->
    fin (small_score g) = true /\ - / 10000 - IZR g / 2000000 <= le_gain g - b2r (small_score g) <= / 10000 + IZR g / 16000.
  Proof.
    intros H. destruct (ratio_log g H) as [Fr Hr]. destruct (bigger_exact g H) as [Fb Eb]. destruct (int_ok g ltac:(lia)) as [Eg Fg].
    assert (1 <= IZR g <= 10000) as R by (split; [apply (IZR_le 1) | apply (IZR_le g)]; lia).
    rewrite gain_eq by lia. destruct (gain_slope (IZR g) ltac:(lra)) as [Sl _]. pose proof (ln_small (IZR g + 1) ltac:(lra)) as Ls.
    pose proof (near_self _ Fb ltac:(lra)) as Nb. rewrite Eb in Nb.
    destruct (log_est 0 _ _ Nb (small_usual (IZR g + 1) ltac:(lra)) ltac:(lra)) as [Fl Hl].
    unfold small_score. cbv zeta. exact (sum_close _ _ _ _ _ _ Fr Fl Fg Eg R Sl Ls Hr Hl).
  Qed.
  Lemma large_close g : (10000 < g < 2 ^ 31)%Z -> fin (large_score g) = true /\ Rabs (b2r (large_score g) - le_gain g) <= 2 / 10000.
  Proof.
    intros H. assert (10000 <= IZR g <= 2147483648) as R by (split; [apply (IZR_le 10000) | apply (IZR_le g)]; lia).
    rewrite gain_eq by lia. destruct (gain_slope (IZR g) ltac:(lra)) as [Sl Lo].
    assert (1 - / 10000 <= IZR g / (IZR g + 1)) as Lo'.
    { replace (IZR g / (IZR g + 1)) with (1 - / (IZR g + 1)) by (field; lra). assert (/ (IZR g + 1) <= / 10000) by (apply Rinv_le_contravar; lra). lra. }
    destruct (int_ok 1 ltac:(lia)) as [E1 F1].
    pose proof (near_self _ F1 ltac:(lra)) as N1. rewrite E1 in N1. pose proof (near_weaken 0 1 _ _ N1 ltac:(lra)) as N1'.
    pose proof (near_add 1 _ _ _ _ N1' (near_int g ltac:(lia)) ltac:(lra) (small_usual (1 + IZR g) ltac:(lra))) as Nb.
    replace (1 + IZR g) with (IZR g + 1) in Nb by ring.
    destruct (log_est _ _ _ Nb (small_usual (IZR g + 1) ltac:(lra)) ltac:(lra)) as [Fl Hl]. unfold large_score. set (t := fast_log32 log2 (b32_plus mode_NE (float_of_int 1) (float_of_int g))) in *. clearbody t.
    assert (0 <= ln (IZR g + 1) <= 32) as Ls.
    { pose proof ln2_hi. split; [rewrite <- ln_1; apply ln_le'; lra |]. apply Rle_trans with (ln (2 ^ 32)); [apply ln_le'; lra |].
      rewrite ln_pow by lra. cbn [INR]. lra. }
    assert (Rabs (b2r (float_of_int 1) + b2r t) <= 34) as M by (rewrite E1; apply Rabs_le; lra).
    destruct (plus_ok _ t F1 Fl) as [Vs Fs]; [apply small127; lra |]. split; [exact Fs |].
    pose proof (rnd_err (b2r (float_of_int 1) + b2r t)) as R2. rewrite <- Vs in R2. unfold u24 in R2. pose proof eta32_pos. rewrite E1 in R2, M.
    set (s := b32_plus mode_NE (float_of_int 1) t) in *. clearbody s.
    assert (Rabs (b2r s - (1 + b2r t)) <= 3 / 1000000) as R2' by lra. apply Rabs_le_inv in R2'. apply Rabs_le. lra.
  Qed.

  (** Between 8200 and 10000 the ratio falls on the first entry of the table. *)
  Lemma ratio_low g : (8200 <= g <= 10000)%Z ->
    0 <= b2r (fast_log32 log2 (b32_div mode_NE (b32_plus mode_NE (float_of_int 1) (float_of_int g)) (float_of_int g))) + 2 / 10000000 <= / 16384 + 4 / 10000000.
  Proof.
    intros H. set (q := b32_div mode_NE (b32_plus mode_NE (float_of_int 1) (float_of_int g)) (float_of_int g)).
    destruct (bigger_exact g ltac:(lia)) as [Fb Eb]. destruct (int_ok g ltac:(lia)) as [Eg Fg].
    assert (8200 <= IZR g <= 10000) as R by (split; [apply (IZR_le 8200) | apply (IZR_le g)]; lia).
    assert (0 < / IZR g <= / 8200) as I by (split; [apply Rinv_0_lt_compat; lra | apply Rinv_le_contravar; lra]).
    assert ((IZR g + 1) / IZR g = 1 + / IZR g) as EQ by (field; lra).
    destruct (div_ok _ (float_of_int g) Fb ltac:(lra)) as [Vq Fq]; [rewrite Eb, Eg, EQ; apply small127; apply Rabs_le; lra |]. fold q in Vq, Fq. rewrite Eb, Eg, EQ in Vq.
    assert (1 <= b2r q <= 1 + 19995 / 10000 / 16384) as Hq.
    { rewrite Vq. split.
      - destruct (int_ok 1 ltac:(lia)) as [E1 _]. rewrite <- E1 at 1. rewrite <- rnd_same. apply rnd_le. rewrite E1. lra.
      - pose proof (rnd_err (1 + / IZR g)) as E. rewrite (Rabs_pos_eq (1 + _)) in E by lra. pose proof eta32_pos. unfold u24 in E. apply Rabs_le_inv in E. lra. }
    destruct (log_unit log2 q G Fq) as (_ & A & B).
    { apply Rle_trans with (bpow radix2 0); [apply bpow_le; lia | cbn; lra]. }
    { apply unit_exponent; [exact Fq | lra]. }
    pose proof (man_small (bits_of_b32 q)) as Hm. fold (index q) in Hm. assert (0 <= IZR (index q)) as Ri by (apply IZR_le; lia).
    assert (index q <= 1)%Z as Hi.
    { assert (1 + IZR (index q) / 16384 <= b2r q) as C.
      { destruct (Rle_or_lt (1 + IZR (index q) / 16384) (b2r q)) as [C | C]; [exact C | exfalso]. apply ln_increasing in C; lra. }
      assert (IZR (index q) < 2) as C2 by lra. apply lt_IZR in C2. lia. }
    assert (0 <= ln (1 + IZR (index q) / 16384) <= / 16384) as D.
    { assert (IZR (index q) <= 1) by (apply IZR_le; lia). split; [rewrite <- ln_1; apply ln_le'; lra |].
      pose proof (ln_sub 1 (1 + IZR (index q) / 16384) ltac:(lra) ltac:(lra)) as E. rewrite ln_1 in E. lra. }
    apply Rabs_le_inv in A. lra.
  Qed.

  Lemma dip g : (8200 <= g <= 10000)%Z -> 38 / 100 <= le_gain g - b2r (small_score g) /\
    b2r (small_score g) <= ln (IZR g + 1) + IZR g * (/ 16384 + 2 / 10000000) + 2 / 100000.
  Proof.
    intros H. pose proof (ratio_low g H) as Hr. destruct (ratio_log g ltac:(lia)) as [Fr _]. destruct (bigger_exact g ltac:(lia)) as [Fb Eb]. destruct (int_ok g ltac:(lia)) as [Eg Fg].
    assert (8200 <= IZR g <= 10000) as R by (split; [apply (IZR_le 8200) | apply (IZR_le g)]; lia).
    rewrite gain_eq by lia. destruct (gain_slope (IZR g) ltac:(lra)) as [_ Sl]. pose proof (ln_small (IZR g + 1) ltac:(lra)) as Ls.
    assert (1 - / 8200 <= IZR g / (IZR g + 1)) as Lo'.
    { replace (IZR g / (IZR g + 1)) with (1 - / (IZR g + 1)) by (field; lra). assert (/ (IZR g + 1) <= / 8200) by (apply Rinv_le_contravar; lra). lra. }
    pose proof (near_self _ Fb ltac:(lra)) as Nb. rewrite Eb in Nb.
    destruct (log_est 0 _ _ Nb (small_usual (IZR g + 1) ltac:(lra)) ltac:(lra)) as [Fl Hl].
    set (L := IZR g * ln ((IZR g + 1) / IZR g)) in *. clearbody L.
    pose proof (sum_round _ _ _ (IZR g) Fr Fl Fg Eg) as Q. unfold small_score. cbv zeta.
    set (r := b2r (fast_log32 log2 (b32_div mode_NE (b32_plus mode_NE (float_of_int 1) (float_of_int g)) (float_of_int g)))) in *.
    assert (- (2 / 10000000) * 10000 <= r * IZR g <= IZR g * (/ 16384 + 2 / 10000000)) as M.
    { split; [| rewrite (Rmult_comm r); apply Rmult_le_compat_l; lra].
      apply Rle_trans with (- (2 / 10000000) * IZR g); [lra | apply Rmult_le_compat_r; lra]. }
    specialize (Q ltac:(apply Rabs_le; lra) ltac:(apply Rabs_le; lra)). apply Rabs_le_inv in Q. lra.
  Qed.
  Lemma index_8190 : index (b32_div mode_NE (b32_plus mode_NE (float_of_int 1) (float_of_int 8190)) (float_of_int 8190)) = 2%Z /\
    (bits_of_b32 (b32_div mode_NE (b32_plus mode_NE (float_of_int 1) (float_of_int 8190)) (float_of_int 8190)) / 8388608 = 127)%Z.
  Proof. split; vm_compute; reflexivity. Qed.
  Lemma score_8190 : ln 8191 + 997 / 1000 <= b2r (small_score 8190).
  Proof.
    destruct (ratio_log 8190 ltac:(lia)) as [Fr _]. destruct (bigger_exact 8190 ltac:(lia)) as [Fb Eb]. destruct (int_ok 8190 ltac:(lia)) as [Eg Fg].
    replace (8190 + 1) with 8191 in Eb by ring. pose proof (near_self _ Fb ltac:(lra)) as Nb. rewrite Eb in Nb.
    destruct (log_est 0 _ _ Nb (small_usual 8191 ltac:(lra)) ltac:(lra)) as [Fl Hl]. pose proof (ln_small 8191 ltac:(lra)) as Ls.
    pose proof (sum_round _ _ _ 8190 Fr Fl Fg Eg) as Q.
    destruct index_8190 as [Ei Ex].
    assert (fin (b32_div mode_NE (b32_plus mode_NE (float_of_int 1) (float_of_int 8190)) (float_of_int 8190)) = true /\
      bpow radix2 (-126) <= b2r (b32_div mode_NE (b32_plus mode_NE (float_of_int 1) (float_of_int 8190)) (float_of_int 8190))) as [Fq Bq].
    { destruct (div_ok _ (float_of_int 8190) Fb ltac:(lra)) as [Vq Fq]; [rewrite Eb, Eg; apply small127; apply Rabs_le; lra |]. split; [exact Fq |]. rewrite Vq, Eb, Eg.
      destruct (int_ok 1 ltac:(lia)) as [E1 _]. apply Rle_trans with 1; [apply (bpow_le radix2 (-126) 0); lia |]. rewrite <- E1 at 1. rewrite <- rnd_same. apply rnd_le. rewrite E1. lra. }
    destruct (log_unit log2 _ G Fq Bq Ex) as (_ & A & _). rewrite Ei in A.
    pose proof (ln_sub (1 + 2 / 16384) 1 ltac:(lra) ltac:(lra)) as D. pose proof (ln_sub 1 (1 + 2 / 16384) ltac:(lra) ltac:(lra)) as D2. rewrite ln_1 in D, D2.
    unfold small_score. cbv zeta.
    set (r := b2r (fast_log32 log2 (b32_div mode_NE (b32_plus mode_NE (float_of_int 1) (float_of_int 8190)) (float_of_int 8190)))) in *. clearbody r.
    apply Rabs_le_inv in A. specialize (Q ltac:(apply Rabs_le; lra) ltac:(apply Rabs_le; lra)). apply Rabs_le_inv in Q. lra.
  Qed.
  Lemma drop : b2r (small_score 8200) < b2r (small_score 8190) - 49 / 100.
  Proof.
    pose proof score_8190 as A. destruct (dip 8200 ltac:(lia)) as [_ B]. replace (8200 + 1) with 8201 in B by ring.
    pose proof (ln_sub 8191 8201 ltac:(lra) ltac:(lra)) as C. lra.
  Qed.

  (** An empty group. *)
  Hypotheses (L45 : lit 45%Z 100%Z = b32_of_bits 1055286886) (L10 : lit 1%Z 10%Z = b32_of_bits 1036831949).
  Lemma lit45 : fin (b32_of_bits 1055286886) = true /\ b2r (b32_of_bits 1055286886) = 15099494 / 33554432.
  Proof.
    assert (B2FF 24 128 (b32_of_bits 1055286886) = F754_finite false 15099494 (-25)) as Q by (vm_compute; reflexivity).
    split; [reflexivity |]. rewrite <- FF2R_B2FF, Q. unfold FF2R, F2R. cbn [Fnum Fexp cond_Zopp]. change (bpow radix2 (-25)) with (/ 33554432). lra.
  Qed.
  Lemma lit10 : fin (b32_of_bits 1036831949) = true /\ b2r (b32_of_bits 1036831949) = 13421773 / 134217728.
  Proof.
    assert (B2FF 24 128 (b32_of_bits 1036831949) = F754_finite false 13421773 (-27)) as Q by (vm_compute; reflexivity).
    split; [reflexivity |]. rewrite <- FF2R_B2FF, Q. unfold FF2R, F2R. cbn [Fnum Fexp cond_Zopp]. change (bpow radix2 (-27)) with (/ 134217728). lra.
  Qed.
  Lemma near_abs k x X : near k x X -> k <= 100 -> Rabs (b2r x - X) <= 2 * k * e23 * X.
  Proof.
    intros (F & P & Q & K & H) K8. unfold e23 in *. apply Rabs_le_inv in H.
    pose proof (ln_sub (b2r x) X P Q) as A. pose proof (ln_sub X (b2r x) Q P) as B.
    set (d := k * / 8388608) in *. assert (0 <= d <= / 80000) as D by (unfold d; lra).
    assert (X - b2r x >= - d * b2r x) as A'.
    { apply Rle_ge. apply Rmult_le_reg_r with (/ b2r x); [now apply Rinv_0_lt_compat |]. replace (- d * b2r x * / b2r x) with (- d) by (field; lra). unfold Rdiv in A. lra. }
    assert (- d * X <= b2r x - X) as B'.
    { apply Rmult_le_reg_r with (/ X); [now apply Rinv_0_lt_compat |]. replace (- d * X * / X) with (- d) by (field; lra). unfold Rdiv in B. lra. }
    assert (b2r x <= 2 * X).
    { assert (d * b2r x <= / 80000 * b2r x) by (apply Rmult_le_compat_r; lra). lra. }
    assert (d * b2r x <= d * (2 * X)) by (apply Rmult_le_compat_l; lra). replace (2 * k * / 8388608 * X) with (d * (2 * X)) by (unfold d; ring).
    assert (0 <= d * X) by (apply Rmult_le_pos; lra). apply Rabs_le. lra.
  Qed.
  Lemma tenth_est m : (1 <= m < 2 ^ 31)%Z -> est (/ 10000000) (/ 10) (b32_div mode_NE (lit 1%Z 10%Z) (float_of_int m)) (/ 10 / IZR m).
  Proof.
    intros H. assert (1 <= IZR m <= 2147483648) as R by (split; [apply (IZR_le 1) | apply (IZR_le m)]; lia).
    assert (/ 2147483648 <= / IZR m <= 1) as I by (split; [apply Rinv_le_contravar; lra | rewrite <- Rinv_1; apply Rinv_le_contravar; lra]).
    rewrite L10. destruct lit10 as [F E]. pose proof (near_self _ F ltac:(lra)) as N. rewrite E in N.
    pose proof (near_div 0 1 _ _ _ _ N (near_int m ltac:(lia)) ltac:(lra)) as Nd.
    assert (usual (13421773 / 134217728 / IZR m)) as U.
    { unfold Rdiv. split; [apply Rle_trans with (bpow radix2 (-40)) | apply Rle_trans with (bpow radix2 0)]; try (apply bpow_le; lia);
        [change (bpow radix2 (-40)) with (/ 1099511627776) | cbn]; lra. }
    specialize (Nd U). pose proof (near_abs _ _ _ Nd ltac:(lra)) as A. destruct Nd as (Fd & _). unfold e23 in A.
    unfold Rdiv in *. split; [split; [exact Fd |] |].
    - apply Rabs_le_inv in A. apply Rabs_le. lra.
    - split; [apply Rabs_le; lra | split; lra].
  Qed.

  Lemma open_close dl dataset k n e : (0 <= k <= n)%Z -> (n < dataset < 2 ^ 31)%Z -> (1 <= e < 2 ^ 31)%Z ->
    exists s, le_score_add (N:=NB) dl dataset 0 k n e = Ok s /\ fin s = true /\ Rabs (b2r s - le_new dataset n e) <= 2 / 10000.
  Proof.
    intros Hk Hn He. unfold le_score_add, le_postpred.
    replace (n <? dataset)%Z with true by (symmetry; apply Z.ltb_lt; lia). replace (0 <? e)%Z with true by (symmetry; apply Z.ltb_lt; lia).
    replace (k <=? n)%Z with true by (symmetry; apply Z.leb_le; lia). change (0 =? 0)%Z with true. rewrite !dassert_true. cbn [obind nneg nlog nof nadd nsub nmul ndiv nlit NB NumB].
    assert (1 <= IZR e <= 2147483648) as Re by (split; [apply (IZR_le 1) | apply (IZR_le e)]; lia).
    assert (0 <= ln (IZR e) <= 32) as Le.
    { pose proof ln2_hi. split; [rewrite <- ln_1; apply ln_le'; lra |]. apply Rle_trans with (ln (2 ^ 32)); [apply ln_le'; lra |]. rewrite ln_pow by lra. cbn [INR]. lra. }
    destruct (log_est 1 _ _ (near_int e ltac:(lia)) (small_usual (IZR e) ltac:(lra)) ltac:(lra)) as [Fe Be].
    assert (est (75 / 1000000) 32 (fast_log32 log2 (float_of_int e)) (ln (IZR e))) as Ee.
    { split; [split; [exact Fe |] |]; [apply Rabs_le; lra | split; [apply Rabs_le; lra | split; lra]]. }
    apply est_opp in Ee. set (t := b32_opp (fast_log32 log2 (float_of_int e))) in *. clearbody t. clear Fe Be. unfold le_new.
    assert (1 <= IZR (n + 1) <= IZR dataset) as Rn by (split; [apply (IZR_le 1) | apply IZR_le]; lia).
    assert (IZR dataset <= 2147483648) as Rd by (apply (IZR_le dataset); lia).
    destruct (Z.ltb_spec (n + 1) dataset) as [Hd | Hd].
    - replace (0 <? n + 1)%Z with true by (symmetry; apply Z.ltb_lt; lia). rewrite !dassert_true. cbn [obind].
      eexists. split; [reflexivity |].
      pose proof (near_div 1 1 _ _ _ _ (near_int dataset ltac:(lia)) (near_int (n + 1) ltac:(lia)) ltac:(lra)) as Ns.
      assert (1 <= IZR dataset / IZR (n + 1) <= 2147483648) as Rs.
      { assert (0 < / IZR (n + 1) <= 1) as I by (split; [apply Rinv_0_lt_compat; lra | rewrite <- Rinv_1; apply Rinv_le_contravar; lra]). split.
        - apply Rmult_le_reg_r with (IZR (n + 1)); [lra |]. unfold Rdiv. rewrite Rmult_assoc, Rinv_l by lra. lra.
        - apply Rle_trans with (IZR dataset * 1); [apply Rmult_le_compat_l; lra | lra]. }
      pose proof (small_usual (IZR dataset / IZR (n + 1)) ltac:(lra)) as Us. specialize (Ns Us). destruct (log_est _ _ _ Ns Us ltac:(lra)) as [Fl Bl].
      assert (0 <= ln (IZR dataset / IZR (n + 1)) <= 32) as Ll.
      { pose proof ln2_hi. split; [rewrite <- ln_1; apply ln_le'; lra |]. apply Rle_trans with (ln (2 ^ 32)); [apply ln_le'; lra |]. rewrite ln_pow by lra. cbn [INR]. lra. }
      set (l := fast_log32 log2 (b32_div mode_NE (float_of_int dataset) (float_of_int (n + 1)))) in *. clearbody l.
      assert (est (75 / 1000000) 32 l (ln (IZR dataset / IZR (n + 1)))) as El.
      { split; [split; [exact Fl |] |]; [apply Rabs_le; lra | split; [apply Rabs_le; lra | split; lra]]. }
      destruct lit45 as [F45 E45].
      assert (est (/ 10000000) (45 / 100) (lit 45%Z 100%Z) (45 / 100)) as E1.
      { rewrite L45. split; [split; [exact F45 | rewrite E45; apply Rabs_le; lra] | split; [rewrite Rabs_pos_eq; lra | split; lra]]. }
      pose proof (est_minus _ _ _ _ _ _ _ _ E1 (tenth_est (n + 1) ltac:(lia)) ltac:(lra)) as E2.
      pose proof (est_minus _ _ _ _ _ _ _ _ E2 (tenth_est dataset ltac:(lia)) ltac:(lra)) as E3.
      assert (est (5 / 10000000) (65 / 100) (b32_minus mode_NE (b32_minus mode_NE (lit 45%Z 100%Z) (b32_div mode_NE (lit 1%Z 10%Z) (float_of_int (n + 1)))) (b32_div mode_NE (lit 1%Z 10%Z) (float_of_int dataset)))
        (45 / 100 - / 10 / IZR (n + 1) - / 10 / IZR dataset)) as E4 by (eapply est_weaken; [exact E3 | lra | lra]).
      pose proof (est_mult _ _ _ _ _ _ _ _ El E4 ltac:(lra)) as E5.
      pose proof (est_plus _ _ _ _ _ _ _ _ Ee E5 ltac:(lra)) as ([Fs Bs] & _). split; [exact Fs |].
      replace (_ - ln (IZR e)) with (- ln (IZR e) + ln (IZR dataset / IZR (n + 1)) * (45 / 100 - / 10 / IZR (n + 1) - / 10 / IZR dataset)) by ring.
      eapply Rle_trans; [exact Bs | lra].
    - exists t. split; [reflexivity |]. destruct Ee as ([Ft Bt] & _). split; [exact Ft |].
      replace dataset with (n + 1)%Z by lia. unfold Rdiv at 1. rewrite Rinv_r, ln_1 by lra. rewrite Rmult_0_l. replace (0 - ln (IZR e)) with (- ln (IZR e)) by ring. lra.
  Qed.
End S.
