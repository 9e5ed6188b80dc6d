(** Accuracy of fast_exp. *)
From Coq Require Import Reals Lra Psatz.
From Flocq Require Import Core BinarySingleNaN Binary Bits Relative.
From Verif.model Require Import Base FastExp.
From Verif.spec Require Import ExpSpec.
From Verif.proof Require Import BaseProof LnBounds.
Local Open Scope R_scope.

Notation b2r := (B2R 24 128).
Notation fin := (Binary.is_finite 24 128).
Definition rnd (x : R) : R := round radix2 (SpecFloat.fexp 24 128) ZnearestE x.
Definition u24 : R := / 16777216.
Definition eta32 : R := bpow radix2 (-150).

Lemma eta32_pos : 0 < eta32 <= / 1000000000000.
Proof.
  unfold eta32. split; [apply bpow_gt_0 |].
  apply Rle_trans with (bpow radix2 (-40)); [apply bpow_le; lia |].
  change (bpow radix2 (-40)) with (/ IZR (Z.pow_pos 2 40)). apply Rinv_le_contravar; [lra |].
  apply IZR_le. vm_compute. discriminate.
Qed.

Lemma rnd_err x : Rabs (rnd x - x) <= u24 * Rabs x + eta32.
Proof.
  unfold rnd. change (SpecFloat.fexp 24 128) with (FLT_exp (-149) 24).
  destruct (error_N_FLT radix2 (-149) 24 (eq_refl : (0 < 24)%Z) (fun z => negb (Z.even z)) x) as (e & h & He & Hh & _ & E).
  change ZnearestE with (Znearest (fun z => negb (Z.even z))). rewrite E.
  replace (x * (1 + e) + h - x) with (x * e + h) by ring.
  eapply Rle_trans; [apply Rabs_triang |]. rewrite Rabs_mult. apply Rplus_le_compat.
  - rewrite Rmult_comm. apply Rmult_le_compat_r; [apply Rabs_pos |].
    eapply Rle_trans; [exact He |]. unfold u24. change (bpow radix2 (- (24) + 1)) with (/ IZR (Z.pow_pos 2 23)).
    change (Z.pow_pos 2 23) with 8388608%Z. lra.
  - eapply Rle_trans; [exact Hh |]. unfold eta32. right.
    change (-149)%Z with (-150 + 1)%Z. rewrite bpow_plus. change (bpow radix2 1) with 2. field.
Qed.

Lemma no_overflow z : Rabs z <= bpow radix2 127 -> Rlt_bool (Rabs (rnd z)) (bpow radix2 128) = true.
Proof.
  intros H. apply Rlt_bool_true. apply Rle_lt_trans with (bpow radix2 127).
  - unfold rnd. apply abs_round_le_generic; [apply FLT_exp_valid; reflexivity | apply valid_rnd_N | | exact H].
    apply generic_format_bpow. vm_compute. discriminate.
  - apply bpow_lt. lia.
Qed.

Lemma mult_ok x y : fin x = true -> fin y = true -> Rabs (b2r x * b2r y) <= bpow radix2 127 ->
  b2r (b32_mult mode_NE x y) = rnd (b2r x * b2r y) /\ fin (b32_mult mode_NE x y) = true.
Proof.
  intros Fx Fy H. unfold b32_mult.
  pose proof (Binary.Bmult_correct 24 128 (refl_equal _) (refl_equal _) binop_nan_pl32 mode_NE x y) as C.
  pose proof (no_overflow _ H) as O. unfold rnd in O. cbn [round_mode] in C. rewrite O in C.
  destruct C as (C1 & C2 & _). split; [exact C1 |]. rewrite C2, Fx, Fy. reflexivity.
Qed.

Lemma plus_ok x y : fin x = true -> fin y = true -> Rabs (b2r x + b2r y) <= bpow radix2 127 ->
  b2r (b32_plus mode_NE x y) = rnd (b2r x + b2r y) /\ fin (b32_plus mode_NE x y) = true.
Proof.
  intros Fx Fy H. unfold b32_plus.
  pose proof (Binary.Bplus_correct 24 128 (refl_equal _) (refl_equal _) binop_nan_pl32 mode_NE x y Fx Fy) as C.
  pose proof (no_overflow _ H) as O. unfold rnd in O. cbn [round_mode] in C. rewrite O in C.
  destruct C as (C1 & C2 & _). split; [exact C1 | exact C2].
Qed.

Lemma minus_ok x y : fin x = true -> fin y = true -> Rabs (b2r x - b2r y) <= bpow radix2 127 ->
  b2r (b32_minus mode_NE x y) = rnd (b2r x - b2r y) /\ fin (b32_minus mode_NE x y) = true.
Proof.
  intros Fx Fy H. unfold b32_minus.
  pose proof (Binary.Bminus_correct 24 128 (refl_equal _) (refl_equal _) binop_nan_pl32 mode_NE x y Fx Fy) as C.
  pose proof (no_overflow _ H) as O. unfold rnd in O. cbn [round_mode] in C. rewrite O in C.
  destruct C as (C1 & C2 & _). split; [exact C1 | exact C2].
Qed.

Lemma bpow127 : 1000000000000 <= bpow radix2 127.
Proof. change (bpow radix2 127) with (IZR (Z.pow_pos 2 127)). apply IZR_le. vm_compute. discriminate. Qed.

Lemma int_ok n : (Z.abs n < 16777216)%Z -> b2r (float_of_int n) = IZR n /\ fin (float_of_int n) = true.
Proof.
  intros H. unfold float_of_int.
  pose proof (Binary.binary_normalize_correct 24 128 prec32 emax32 mode_NE n 0 false) as C.
  assert (F2R (Float radix2 n 0) = IZR n) as E by (unfold F2R; cbn; ring).
  rewrite E in C. cbn [round_mode] in C.
  assert (Rabs (IZR n) <= bpow radix2 127) as HB.
  { pose proof bpow127. rewrite <- abs_IZR. apply Rle_trans with (IZR 16777216); [apply IZR_le; lia | lra]. }
  pose proof (no_overflow _ HB) as O. unfold rnd in O. rewrite O in C. destruct C as (C1 & C2 & _).
  split; [| exact C2]. rewrite C1. apply round_generic; [apply valid_rnd_N |].
  change (SpecFloat.fexp 24 128) with (FLT_exp (-149) 24). apply generic_format_FLT.
  exists (Float radix2 n 0); [now rewrite E | cbn; lia | cbn; lia].
Qed.

Lemma cvt_ok x : fin x = true -> -2147483000 <= b2r x <= 2147483000 -> cvtss_si32 x = ZnearestE (b2r x).
Proof.
  intros Fx H.
  assert (Btrunc 24 128 (Binary.Bnearbyint 24 128 emax32 unop_nan_pl32 mode_NE x) = ZnearestE (b2r x)) as E.
  { apply eq_IZR. rewrite Binary.Btrunc_correct by reflexivity. rewrite round_FIX_IZR. f_equal.
    destruct (Binary.Bnearbyint_correct 24 128 emax32 unop_nan_pl32 mode_NE x) as (-> & _).
    cbn [round_mode]. rewrite round_FIX_IZR. apply Ztrunc_IZR. }
  pose proof (Znearest_half (fun z => negb (Z.even z)) (b2r x)) as Z.
  apply Rabs_le_inv in Z.
  assert (-2147483648 <= ZnearestE (b2r x) <= 2147483647)%Z as B.
  { split; apply le_IZR; lra. }
  unfold cvtss_si32. rewrite E.
  replace ((-2147483648 <=? ZnearestE (b2r x))%Z && (ZnearestE (b2r x) <=? 2147483647)%Z)%bool with true
    by (symmetry; apply andb_true_iff; split; apply Z.leb_le; lia).
  destruct x; try discriminate Fx; reflexivity.
Qed.

Lemma a_val : b2r exp_a = 12102203 / 8192 /\ fin exp_a = true.
Proof.
  assert (B2FF 24 128 exp_a = F754_finite false 12102203 (-13)) as E by (vm_compute; reflexivity).
  split.
  - rewrite <- FF2R_B2FF, E. cbn. unfold F2R. cbn. change (Z.pow_pos 2 13) with 8192%Z. lra.
  - rewrite <- is_finite_B2FF, E. reflexivity.
Qed.

Lemma b_val : b2r exp_b = 11629080 / 17179869184 /\ fin exp_b = true.
Proof.
  assert (B2FF 24 128 exp_b = F754_finite false 11629080 (-34)) as E by (vm_compute; reflexivity).
  split.
  - rewrite <- FF2R_B2FF, E. cbn. unfold F2R. cbn. change (Z.pow_pos 2 34) with 17179869184%Z. lra.
  - rewrite <- is_finite_B2FF, E. reflexivity.
Qed.

Lemma lor_add e lo : (0 <= e)%Z -> (0 <= lo < 8388608)%Z -> Z.lor (e * 8388608) lo = (e * 8388608 + lo)%Z.
Proof.
  intros He Hlo. enough (Z.land (e * 8388608) lo = 0)%Z as H by (now rewrite Z.add_nocarry_lxor, Z.lxor_lor).
  apply Z.bits_inj'. intros n Hn. rewrite Z.land_spec, Z.bits_0.
  change 8388608%Z with (2 ^ 23)%Z.
  destruct (Z.lt_ge_cases n 23) as [H | H].
  - rewrite Z.mul_pow2_bits_low by exact H. reflexivity.
  - replace (Z.testbit lo n) with false; [apply andb_false_r |]. symmetry.
    destruct (Z.eq_dec lo 0) as [-> | NZ]; [apply Z.bits_0 |].
    apply Z.bits_above_log2; [lia |]. apply Z.log2_lt_pow2; [lia |].
    apply Z.lt_le_trans with (2 ^ 23)%Z; [exact (proj2 Hlo) | apply Z.pow_le_mono_r; lia].
Qed.

Lemma bits_ok e lo : (0 <= e < 255)%Z -> (0 <= lo < 8388608)%Z ->
  fin (b32_of_bits (e * 8388608 + lo)) = true /\
  b2r (b32_of_bits (e * 8388608 + lo)) =
    if (e =? 0)%Z then IZR lo * bpow radix2 (-149) else (8388608 + IZR lo) * bpow radix2 (e - 150).
Proof.
  intros He Hlo. unfold b32_of_bits, binary_float_of_bits.
  rewrite <- is_finite_B2FF, <- FF2R_B2FF, B2FF_FF2B.
  unfold binary_float_of_bits_aux, split_bits.
  change (2 ^ 23)%Z with 8388608%Z. change (2 ^ 8)%Z with 256%Z.
  assert ((e * 8388608 + lo) mod 8388608 = lo)%Z as ->.
  { rewrite Z.add_comm, Z.mod_add by lia. now apply Z.mod_small. }
  assert ((e * 8388608 + lo) / 8388608 = e)%Z as ->.
  { rewrite Z.div_add_l by lia. rewrite Z.div_small by lia. lia. }
  rewrite (Z.mod_small e 256) by lia.
  assert (Zle_bool (8388608 * 256) (e * 8388608 + lo) = false) as -> by (apply Z.leb_gt; lia).
  destruct (Z.eqb_spec e 0) as [-> | Hne].
  - cbn [Zeq_bool Z.compare]. destruct lo as [| p | p]; [| | lia].
    + cbn. split; [reflexivity | ring].
    + cbn. split; reflexivity.
  - assert (Zeq_bool e 0 = false) as -> by (apply Zeq_bool_false; exact Hne).
    assert (Zeq_bool e (256 - 1) = false) as -> by (apply Zeq_bool_false; lia).
    destruct (lo + 8388608)%Z as [| p | p] eqn:E; [lia | | lia].
    cbn [is_finite_FF FF2R]. split; [reflexivity |].
    unfold F2R. cbn [Fnum Fexp cond_Zopp]. rewrite <- E, plus_IZR.
    replace (e + SpecFloat.emin (23 + 1) (2 ^ (8 - 1)) - 1)%Z with (e - 150)%Z by (change (SpecFloat.emin (23 + 1) (2 ^ (8 - 1))) with (-149)%Z; ring).
    ring.
Qed.

(** *** The computation on real numbers *)
Lemma ln2_near : 0 <= 11629080 / 16777216 - ln 2 <= 2 / 1000000000.
Proof. pose proof ln2_lo. pose proof ln2_hi. lra. Qed.

Section Core.
Variables X y r p t : R.
Hypothesis (HX : -89 <= X <= 89).
Hypothesis (Hy : Rabs (y - X * (12102203 / 8192)) <= u24 * Rabs (X * (12102203 / 8192)) + eta32).
Hypothesis (Hr : Rabs (y - r) <= / 2).
Let b := 11629080 / 17179869184.
Hypothesis (Hp : Rabs (p - r * b) <= u24 * Rabs (r * b) + eta32).
Hypothesis (Ht : Rabs (t - (X - p)) <= u24 * Rabs (X - p) + eta32).
Let T0 := X - r * ln 2 / 1024.

Lemma core_r : X * ((14773197 / 10000)) - (55 / 100) <= r <= X * ((14773197 / 10000)) + (55 / 100) /\
  - (38 / 100000) <= r * b - X <= 38 / 100000.
Proof.
  pose proof eta32_pos. apply Rabs_le_inv in Hr.
  assert (- (u24 * (132000) + eta32) <= y - X * (12102203 / 8192) <= u24 * 132000 + eta32) as Hy'.
  { apply Rabs_le_inv. eapply Rle_trans; [exact Hy |]. apply Rplus_le_compat_r.
    apply Rmult_le_compat_l; [unfold u24; lra |]. apply Rabs_le. lra. }
  unfold u24, b in *. lra.
Qed.

Lemma core_t : - (u24 * ((106 / 100) * Rabs X + (1 / 100))) <= t - T0 <= u24 * ((106 / 100) * Rabs X + (1 / 100)) /\
  -(4 / 10000) <= T0 <= (4 / 10000) /\ -(41 / 100000) <= t <= (41 / 100000).
Proof.
  destruct core_r as [Hr1 Hr2]. pose proof eta32_pos as He. pose proof ln2_near as HL.
  assert (Rabs (r * b) <= Rabs X + (38 / 100000)) as HA.
  { replace (r * b) with (X + (r * b - X)) by ring. eapply Rle_trans; [apply Rabs_triang |].
    apply Rplus_le_compat_l, Rabs_le. lra. }
  assert (- (u24 * ((5 / 100) * Rabs X + (1 / 1000))) <= r * b - r * ln 2 / 1024 <= u24 * ((5 / 100) * Rabs X + (1 / 1000))) as HQ.
  { apply Rabs_le_inv. replace (r * b - r * ln 2 / 1024) with ((r * b) * (1 - ln 2 * (16777216 / 11629080))) by (unfold b; field).
    rewrite Rabs_mult.
    assert (Rabs (1 - ln 2 * (16777216 / 11629080)) <= (5 / 100) * u24) as H1 by (apply Rabs_le; unfold u24; lra).
    eapply Rle_trans; [apply Rmult_le_compat; [apply Rabs_pos | apply Rabs_pos | exact HA | exact H1] |].
    unfold u24. pose proof (Rabs_pos X). lra. }
  assert (Rabs X <= 89) as HX' by (apply Rabs_le; lra). pose proof (Rabs_pos X) as HX0.
  assert (- (u24 * (Rabs X + (38 / 100000)) + eta32) <= p - r * b <= u24 * (Rabs X + (38 / 100000)) + eta32) as HP.
  { apply Rabs_le_inv. eapply Rle_trans; [exact Hp |]. apply Rplus_le_compat_r.
    apply Rmult_le_compat_l; [unfold u24; lra | exact HA]. }
  assert (- (u24 * (4 / 10000) + eta32) <= t - (X - p) <= u24 * (4 / 10000) + eta32) as HT.
  { apply Rabs_le_inv. eapply Rle_trans; [exact Ht |]. apply Rplus_le_compat_r.
    apply Rmult_le_compat_l; [unfold u24; lra |]. apply Rabs_le. unfold u24 in *. lra. }
  unfold T0, u24 in *. lra.
Qed.

Lemma exp_small z : -(4 / 10000) <= z <= (4 / 10000) -> 1 + z <= exp z <= 1 + z + (1001 / 1000) * (z * z).
Proof.
  intros Hz. split; [apply exp_ineq1_le |].
  pose proof (exp_ineq1_le (- z)) as H. pose proof (exp_pos z) as HP.
  assert (exp z * exp (- z) = 1) as E by (rewrite <- exp_plus; replace (z + - z) with 0 by ring; apply exp_0).
  assert (exp z * (1 - z) <= 1) as H1 by nra.
  apply Rmult_le_reg_r with (1 - z); [lra |]. eapply Rle_trans; [exact H1 |].
  replace ((1 + z + (1001 / 1000) * (z * z)) * (1 - z)) with (1 + z * z * ((1 / 1000) - (1001 / 1000) * z)) by field.
  assert (0 <= z * z) by nra. nra.
Qed.

Variables s F w E delta : R.
Hypothesis (Hs : Rabs (s - (1 + t)) <= u24 * Rabs (1 + t) + eta32).
Hypothesis (HE : eta32 <= u24 * E).
Hypothesis (HF : F = E * (1 + delta)).
Hypothesis (Hd : Rabs delta <= 2 * u24).
Hypothesis (Hw : Rabs (w - s * F) <= u24 * Rabs (s * F) + eta32).

Lemma core_s : Rabs (s - exp T0) <= u24 * ((106 / 100) * Rabs X + 4) /\ (999 / 1000) <= s <= (1001 / 1000) /\ (9996 / 10000) <= exp T0.
Proof.
  destruct core_t as (H1 & H2 & H3). pose proof eta32_pos as He. pose proof (Rabs_pos X) as HX0.
  destruct (exp_small _ H2) as [H4 H5].
  assert (T0 * T0 <= (16 / 100000000)) as H6 by nra.
  assert (- (u24 * (100041 / 100000) + eta32) <= s - (1 + t) <= u24 * (100041 / 100000) + eta32) as HS.
  { apply Rabs_le_inv. eapply Rle_trans; [exact Hs |]. apply Rplus_le_compat_r.
    apply Rmult_le_compat_l; [unfold u24; lra |]. apply Rabs_le. lra. }
  assert (Rabs X <= 89) as HX' by (apply Rabs_le; lra).
  unfold u24 in *. split; [apply Rabs_le; lra | lra].
Qed.

Lemma core_F : 0 < E /\ 0 < F /\ F <= (1001 / 1000) * E.
Proof.
  pose proof eta32_pos. unfold u24 in *. apply Rabs_le_inv in Hd.
  assert (0 < E) as H0 by nra. rewrite HF. repeat split; nra.
Qed.

Lemma core_w : Rabs (w - E * exp T0) <= (Rabs X + 8) / 8388608 * (E * exp T0).
Proof.
  destruct core_s as (H1 & H2 & H3). destruct core_F as (H4 & H5 & H6). pose proof (Rabs_pos X) as HX0.
  replace (w - E * exp T0) with ((w - s * F) + (E * (s - exp T0) + E * (s * delta))) by (rewrite HF; ring).
  assert (Rabs (s * F) <= (1003 / 1000) * E) as HSF.
  { rewrite Rabs_mult, (Rabs_right s), (Rabs_right F) by lra.
    apply Rle_trans with ((1001 / 1000) * ((1001 / 1000) * E)); [apply Rmult_le_compat; lra | lra]. }
  assert (Rabs (E * (s - exp T0)) <= E * (u24 * ((106 / 100) * Rabs X + 4))) as HA.
  { rewrite Rabs_mult, (Rabs_right E) by lra. apply Rmult_le_compat_l; lra. }
  assert (Rabs (E * (s * delta)) <= E * ((1001 / 1000) * (2 * u24))) as HB.
  { rewrite !Rabs_mult, (Rabs_right E), (Rabs_right s) by lra. apply Rmult_le_compat_l; [lra |].
    apply Rmult_le_compat; try lra. apply Rabs_pos. }
  assert (Rabs (w - s * F) <= E * (u24 * (2003 / 1000))) as HC.
  { eapply Rle_trans; [exact Hw |]. unfold u24 in *. lra. }
  eapply Rle_trans; [apply Rabs_triang |].
  eapply Rle_trans; [apply Rplus_le_compat; [exact HC | eapply Rle_trans; [apply Rabs_triang | apply Rplus_le_compat; [exact HA | exact HB]]] |].
  replace (E * (u24 * (2003 / 1000)) + (E * (u24 * ((106 / 100) * Rabs X + 4)) + E * ((1001 / 1000) * (2 * u24))))
    with (E * u24 * ((106 / 100) * Rabs X + (8005 / 1000))) by field.
  apply Rle_trans with (E * u24 * (2 * (Rabs X + 8) * exp T0)).
  - apply Rmult_le_compat_l; [unfold u24; lra |]. nra.
  - unfold u24. right. field.
Qed.
End Core.

Definition exp_r (x1 : binary32) : Z := cvtss_si32 (b32_mult mode_NE x1 exp_a).
Definition exp_t (x1 : binary32) : binary32 :=
  b32_minus mode_NE x1 (b32_mult mode_NE (float_of_int (exp_r x1)) exp_b).
Definition exp_s (x1 : binary32) : binary32 := b32_plus mode_NE (float_of_int 1) (exp_t x1).

Lemma steps x1 : fin x1 = true -> -89 <= b2r x1 <= 89 ->
  exists y p,
    Rabs (y - b2r x1 * (12102203 / 8192)) <= u24 * Rabs (b2r x1 * (12102203 / 8192)) + eta32 /\
    Rabs (y - IZR (exp_r x1)) <= / 2 /\
    Rabs (p - IZR (exp_r x1) * (11629080 / 17179869184)) <=
      u24 * Rabs (IZR (exp_r x1) * (11629080 / 17179869184)) + eta32 /\
    Rabs (b2r (exp_t x1) - (b2r x1 - p)) <= u24 * Rabs (b2r x1 - p) + eta32 /\
    Rabs (b2r (exp_s x1) - (1 + b2r (exp_t x1))) <= u24 * Rabs (1 + b2r (exp_t x1)) + eta32 /\
    fin (exp_s x1) = true.
Proof.
  intros Fx HX. pose proof bpow127 as HB. pose proof eta32_pos as He.
  destruct a_val as [Ea Fa]. destruct b_val as [Eb Fb].
  destruct (mult_ok x1 exp_a Fx Fa) as [E1 F1].
  { rewrite Ea. eapply Rle_trans; [| exact HB]. apply Rabs_le. lra. }
  rewrite Ea in E1. pose proof (rnd_err (b2r x1 * (12102203 / 8192))) as R1. rewrite <- E1 in R1.
  set (y := b2r (b32_mult mode_NE x1 exp_a)) in *.
  assert (-132000 <= y <= 132000) as HY.
  { assert (Rabs (b2r x1 * (12102203 / 8192)) <= 131500) as G by (apply Rabs_le; lra).
    assert (Rabs (y - b2r x1 * (12102203 / 8192)) <= 1) as G1 by (unfold u24 in R1; lra).
    apply Rabs_le_inv in G, G1. lra. }
  assert (exp_r x1 = ZnearestE y) as Er.
  { unfold exp_r, y. apply cvt_ok; [exact F1 | fold y; lra]. }
  pose proof (Znearest_half (fun z => negb (Z.even z)) y) as R2. change (Znearest (fun z => negb (Z.even z)) y) with (ZnearestE y) in R2.
  rewrite <- Er in R2. pose proof (Rabs_le_inv _ _ R2) as R2'.
  assert (Z.abs (exp_r x1) < 16777216)%Z as HR.
  { clear - R2' HY. assert (-16777216 < exp_r x1 < 16777216)%Z; [| lia]. split; apply lt_IZR; lra. }
  destruct (int_ok _ HR) as [Ei Fi].
  destruct (mult_ok (float_of_int (exp_r x1)) exp_b Fi Fb) as [E3 F3].
  { rewrite Ei, Eb. eapply Rle_trans; [| exact HB]. apply Rabs_le. lra. }
  rewrite Ei, Eb in E3. pose proof (rnd_err (IZR (exp_r x1) * (11629080 / 17179869184))) as R3. rewrite <- E3 in R3.
  set (p := b2r (b32_mult mode_NE (float_of_int (exp_r x1)) exp_b)) in *.
  exists y, p.
  assert (-100 <= p <= 100) as HP.
  { assert (Rabs (IZR (exp_r x1) * (11629080 / 17179869184)) <= 90) as G by (apply Rabs_le; lra).
    assert (Rabs (p - IZR (exp_r x1) * (11629080 / 17179869184)) <= 1) as G1 by (unfold u24 in R3; lra).
    apply Rabs_le_inv in G, G1. lra. }
  destruct (minus_ok x1 (b32_mult mode_NE (float_of_int (exp_r x1)) exp_b) Fx F3) as [E4 F4].
  { fold p. eapply Rle_trans; [| exact HB]. apply Rabs_le. lra. }
  fold p in E4. fold (exp_t x1) in E4, F4. pose proof (rnd_err (b2r x1 - p)) as R4. rewrite <- E4 in R4.
  assert (-1000 <= b2r (exp_t x1) <= 1000) as HT.
  { assert (Rabs (b2r x1 - p) <= 200) as G by (apply Rabs_le; lra).
    assert (Rabs (b2r (exp_t x1) - (b2r x1 - p)) <= 1) as G1 by (unfold u24 in R4; lra).
    apply Rabs_le_inv in G, G1. lra. }
  destruct (int_ok 1 ltac:(lia)) as [E1' F1'].
  destruct (plus_ok (float_of_int 1) (exp_t x1) F1' F4) as [E5 F5].
  { rewrite E1'. eapply Rle_trans; [| exact HB]. apply Rabs_le. lra. }
  rewrite E1' in E5. fold (exp_s x1) in E5, F5. pose proof (rnd_err (1 + b2r (exp_t x1))) as R5. rewrite <- E5 in R5.
  repeat split; assumption.
Qed.

Lemma compare_ok x y : fin x = true -> fin y = true -> b32_compare x y = Some (Rcompare (b2r x) (b2r y)).
Proof. intros. unfold b32_compare. now apply Binary.Bcompare_correct. Qed.

Lemma cvt_limit x : fin x = true -> -1028653000 <= b2r x <= 89 ->
  (0 <= b2r x -> (f88 <? Z.land (cvtss_si32 x) 2147483647)%Z = false) /\
  (b2r x <= -1 -> (f88 <? Z.land (cvtss_si32 x) 2147483647)%Z = true).
Proof.
  intros Fx HX. rewrite cvt_ok by (exact Fx || lra).
  pose proof (Znearest_half (fun z => negb (Z.even z)) (b2r x)) as R2.
  change (Znearest (fun z => negb (Z.even z)) (b2r x)) with (ZnearestE (b2r x)) in R2. apply Rabs_le_inv in R2.
  set (n := ZnearestE (b2r x)) in *. change 2147483647%Z with (Z.ones 31). rewrite Z.land_ones by lia.
  split; intros H.
  - assert (0 <= n <= 100)%Z as Hn.
    { assert (-1 < n < 101)%Z; [split; apply lt_IZR; lra | lia]. }
    rewrite Z.mod_small by (change (2 ^ 31)%Z with 2147483648%Z; lia). apply Z.ltb_ge. unfold f88. lia.
  - assert (-1028653002 < n < 0)%Z as Hn.
    { split; apply lt_IZR; lra. }
    assert (n mod 2 ^ 31 = n + 2147483648)%Z as ->.
    { symmetry. apply Z.mod_unique with (q := (-1)%Z); change (2 ^ 31)%Z with 2147483648%Z; lia. }
    apply Z.ltb_lt. unfold f88. lia.
Qed.

Lemma exp_arg_same x : fin x = true -> -87 <= b2r x <= 88 -> exp_arg x = x.
Proof.
  intros Fx HX. unfold exp_arg. destruct (_ <? _)%Z eqn:C; [| reflexivity].
  destruct (Rle_or_lt 0 (b2r x)) as [H | H].
  - destruct (cvt_limit x Fx ltac:(lra)) as [H1 _]. rewrite H1 in C by exact H. discriminate C.
  - destruct (int_ok 88 ltac:(lia)) as [E1 F1]. destruct (int_ok (-88) ltac:(lia)) as [E2 F2].
    unfold min_ss. rewrite compare_ok, E1 by assumption. rewrite Rcompare_Lt by lra.
    unfold max_ss. rewrite compare_ok, E2 by assumption. rewrite Rcompare_Gt by lra. reflexivity.
Qed.

Lemma exp_arg_low x : fin x = true -> -1028653000 <= b2r x <= -87 ->
  fin (exp_arg x) = true /\ b2r (exp_arg x) = Rmax (b2r x) (-88).
Proof.
  intros Fx HX. unfold exp_arg. destruct (cvt_limit x Fx ltac:(lra)) as [_ ->]; [| lra].
  destruct (int_ok 88 ltac:(lia)) as [E1 F1]. destruct (int_ok (-88) ltac:(lia)) as [E2 F2].
  unfold min_ss. rewrite compare_ok, E1 by assumption. rewrite Rcompare_Lt by lra.
  unfold max_ss. rewrite compare_ok, E2 by assumption.
  destruct (Rcompare_spec (b2r x) (-88)) as [H | H | H].
  - rewrite Rmax_right by lra. now split.
  - rewrite Rmax_right by lra. now split.
  - rewrite Rmax_left by lra. now split.
Qed.

Definition exp_res (x1 : binary32) (m : Z) : binary32 :=
  b32_mult mode_NE (exp_s x1) (b32_of_bits ((Z.shiftr (exp_r x1) 10 + 127) * 8388608 + m)).

Lemma unfold_fast_exp tbl x m :
  faithful_table tbl -> (-127 <= Z.shiftr (exp_r (exp_arg x)) 10 <= 127)%Z ->
  nth_error tbl (Z.to_nat (exp_r (exp_arg x) mod 1024)) = Some m ->
  fast_exp tbl x = Ok (exp_res (exp_arg x) m).
Proof.
  intros (HL & H0 & HT) Hu Hm. unfold fast_exp. fold (exp_r (exp_arg x)).
  unfold shift_exponent. rewrite (proj2 (Z.leb_le _ _)) by lia. rewrite (proj2 (Z.ltb_lt _ _)) by lia.
  cbn [andb obind].
  change 1023%Z with (Z.ones 10). rewrite Z.land_ones by lia. change (2 ^ 10)%Z with 1024%Z.
  unfold vget. rewrite Hm. cbn [obind].
  fold (exp_t (exp_arg x)). fold (exp_s (exp_arg x)). unfold exp_res.
  rewrite lor_add; [reflexivity | lia |]. apply (HT _ _ Hm).
Qed.

Lemma table_entry tbl r : faithful_table tbl -> exists m, nth_error tbl (Z.to_nat (r mod 1024)) = Some m.
Proof.
  intros (HL & _ & _). destruct (nth_error tbl (Z.to_nat (r mod 1024))) as [m |] eqn:E; [now exists m |].
  apply nth_error_None in E. rewrite HL in E. pose proof (Z.mod_pos_bound r 1024 eq_refl). lia.
Qed.

(** 2^(r/1024) in its two parts *)
Lemma two_parts r : exp (IZR r * ln 2 / 1024) =
  bpow radix2 (Z.shiftr r 10) * Rpower 2 (INR (Z.to_nat (r mod 1024)) / 1024).
Proof.
  rewrite Z.shiftr_div_pow2 by lia. change (2 ^ 10)%Z with 1024%Z.
  rewrite bpow_exp. unfold Rpower. rewrite <- exp_plus. f_equal.
  rewrite INR_IZR_INZ, Z2Nat.id by (apply Z.mod_pos_bound; lia).
  change (IZR radix2) with 2.
  rewrite (Z.div_mod r 1024) at 1 by lia. rewrite plus_IZR, mult_IZR. field.
Qed.

Lemma part_ge_1 i : 1 <= Rpower 2 (INR i / 1024).
Proof.
  rewrite <- (Rpower_O 2) at 1 by lra. apply Rle_Rpower; [lra |].
  apply Rmult_le_pos; [apply pos_INR | lra].
Qed.

Lemma fast_exp_core tbl x :
  faithful_table tbl -> fin x = true -> -87 <= b2r x <= 88 ->
  exists y, fast_exp tbl x = Ok y /\ fin y = true /\
    Rabs (b2r y - exp (b2r x)) <= (Rabs (b2r x) + 8) / 8388608 * exp (b2r x).
Proof.
  intros HT Fx HX. pose proof (exp_arg_same x Fx HX) as EA.
  destruct (steps x Fx ltac:(lra)) as (y & p & H1 & H2 & H3 & H4 & H5 & F5).
  destruct (core_r (b2r x) y (IZR (exp_r x)) ltac:(lra) H1 H2) as [Hr _].
  set (r := exp_r x) in *.
  assert (-129024 <= r < 130048)%Z as Hr'.
  { assert (-129025 < r < 130048)%Z; [split; apply lt_IZR; lra | lia]. }
  assert (-126 <= Z.shiftr r 10 <= 126)%Z as Hu.
  { rewrite Z.shiftr_div_pow2 by lia. change (2 ^ 10)%Z with 1024%Z.
    split; [apply Z.div_le_lower_bound; lia |]. assert (r / 1024 < 127)%Z; [apply Z.div_lt_upper_bound; lia | lia]. }
  destruct (table_entry tbl r HT) as [m Hm].
  rewrite (unfold_fast_exp tbl x m HT); rewrite EA; [| fold r; lia | exact Hm].
  eexists; split; [reflexivity |].
  destruct HT as (_ & _ & HT). destruct (HT _ _ Hm) as [Hm1 Hm2].
  destruct (bits_ok (Z.shiftr r 10 + 127) m ltac:(lia) Hm1) as [Ff Ef].
  rewrite (proj2 (Z.eqb_neq _ _)) in Ef by lia.
  set (P := Rpower 2 (INR (Z.to_nat (r mod 1024)) / 1024)) in *.
  pose proof (part_ge_1 (Z.to_nat (r mod 1024))) as HP. fold P in HP.
  pose proof (two_parts r) as HE. fold P in HE.
  set (E := exp (IZR r * ln 2 / 1024)) in *.
  assert (b2r (b32_of_bits ((Z.shiftr r 10 + 127) * 8388608 + m)) = bpow radix2 (Z.shiftr r 10) * (1 + IZR m / 8388608)) as Ef'.
  { rewrite Ef. replace (Z.shiftr r 10 + 127 - 150)%Z with (Z.shiftr r 10 + -23)%Z by lia.
    rewrite bpow_plus. change (bpow radix2 (-23)) with (/ 8388608). field. }
  set (B := bpow radix2 (Z.shiftr r 10)) in *.
  assert (0 < B) as HB by apply bpow_gt_0.
  set (dl := (1 + IZR m / 8388608) / P - 1).
  assert (b2r (b32_of_bits ((Z.shiftr r 10 + 127) * 8388608 + m)) = E * (1 + dl)) as EF.
  { rewrite Ef', HE. unfold dl. field. lra. }
  assert (Rabs dl <= 2 * u24) as Hd.
  { unfold dl. replace (_ / P - 1) with ((1 + IZR m / 8388608 - P) * / P) by (field; lra).
    rewrite Rabs_mult. apply Rle_trans with (/ 8388608 * 1); [| unfold u24; lra].
    apply Rmult_le_compat; try apply Rabs_pos; [exact Hm2 |].
    rewrite Rabs_pos_eq; [| left; apply Rinv_0_lt_compat; lra].
    rewrite <- Rinv_1. apply Rinv_le_contravar; lra. }
  assert (eta32 <= u24 * E) as HEe.
  { unfold u24, eta32. rewrite HE. change (-150)%Z with (-24 + -126)%Z. rewrite bpow_plus.
    change (bpow radix2 (-24)) with (/ 16777216).
    assert (bpow radix2 (-126) <= B) as G by (apply bpow_le; lia).
    assert (bpow radix2 (-126) <= B * P) as G1 by nra. lra. }
  destruct (core_s (b2r x) y (IZR r) p (b2r (exp_t x)) ltac:(lra) H1 H2 H3 H4 _ H5) as (_ & Hs & _).
  destruct (core_F _ _ _ HEe EF Hd) as (HE0 & HF0 & HF1).
  assert (Rabs (b2r (exp_s x) * b2r (b32_of_bits ((Z.shiftr r 10 + 127) * 8388608 + m))) <= bpow radix2 127) as HO.
  { rewrite Rabs_mult, (Rabs_pos_eq (b2r (exp_s x))) by lra. rewrite (Rabs_pos_eq (b2r (b32_of_bits _))) by lra.
    apply Rle_trans with (exp (21 / 10000) * E).
    { pose proof (exp_ineq1_le (21 / 10000)) as GE.
      apply Rle_trans with ((1001 / 1000) * ((1001 / 1000) * E)); [apply Rmult_le_compat; lra |].
      rewrite <- Rmult_assoc. apply Rmult_le_compat_r; lra. }
    unfold E. rewrite <- exp_plus, bpow_exp. change (IZR radix2) with 2.
    destruct (core_t (b2r x) y (IZR r) p (b2r (exp_t x)) ltac:(lra) H1 H2 H3 H4) as (_ & GT & _).
    apply exp_le. pose proof ln2_lo. lra. }
  destruct (mult_ok _ _ F5 Ff HO) as [Ew Fw]. unfold exp_res. fold r.
  split; [exact Fw |].
  pose proof (rnd_err (b2r (exp_s x) * b2r (b32_of_bits ((Z.shiftr r 10 + 127) * 8388608 + m)))) as Hw.
  rewrite <- Ew in Hw.
  pose proof (core_w (b2r x) y (IZR r) p (b2r (exp_t x)) ltac:(lra) H1 H2 H3 H4 _ _ _ E dl H5 HEe EF Hd Hw) as G.
  assert (E * exp (b2r x - IZR r * ln 2 / 1024) = exp (b2r x)) as G1.
  { unfold E. rewrite <- exp_plus. f_equal. ring. }
  rewrite G1 in G. exact G.
Qed.

Lemma fast_exp_low tbl x :
  faithful_table tbl -> fin x = true -> -1028653000 <= b2r x <= -87 ->
  exists y, fast_exp tbl x = Ok y /\ fin y = true /\ 0 <= b2r y <= bpow radix2 (-124).
Proof.
  intros HT Fx HX. destruct (exp_arg_low x Fx HX) as [FA EA].
  assert (-88 <= b2r (exp_arg x) <= -87) as HA.
  { rewrite EA. split; [apply Rmax_r | apply Rmax_lub; lra]. }
  set (x1 := exp_arg x) in *.
  destruct (steps x1 FA ltac:(lra)) as (y & p & H1 & H2 & H3 & H4 & H5 & F5).
  destruct (core_r (b2r x1) y (IZR (exp_r x1)) ltac:(lra) H1 H2) as [Hr _].
  destruct (core_s (b2r x1) y (IZR (exp_r x1)) p (b2r (exp_t x1)) ltac:(lra) H1 H2 H3 H4 _ H5) as (_ & Hs & _).
  set (r := exp_r x1) in *.
  assert (-130048 <= r < -128000)%Z as Hr'.
  { assert (-130049 < r < -128000)%Z; [split; apply lt_IZR; lra | lia]. }
  assert (-127 <= Z.shiftr r 10 <= -126)%Z as Hu.
  { rewrite Z.shiftr_div_pow2 by lia. change (2 ^ 10)%Z with 1024%Z.
    split; [apply Z.div_le_lower_bound; lia |]. assert (r / 1024 < -125)%Z; [apply Z.div_lt_upper_bound; lia | lia]. }
  destruct (table_entry tbl r HT) as [m Hm].
  rewrite (unfold_fast_exp tbl x m HT); fold x1; fold r; [| lia | exact Hm].
  eexists; split; [reflexivity |].
  destruct HT as (_ & _ & HT). destruct (HT _ _ Hm) as [Hm1 Hm2].
  destruct (bits_ok (Z.shiftr r 10 + 127) m ltac:(lia) Hm1) as [Ff Ef].
  unfold exp_res. fold r. set (f := b32_of_bits _) in *.
  assert (0 <= IZR m < 8388608) as HmR by (split; [apply IZR_le | apply IZR_lt]; lia).
  assert (0 <= b2r f <= bpow radix2 (-125)) as Hf.
  { rewrite Ef. change (bpow radix2 (-125)) with (bpow radix2 (24 + -149)). rewrite bpow_plus.
    change (bpow radix2 24) with 16777216. pose proof (bpow_gt_0 radix2 (-149)) as HG.
    destruct (_ =? _)%Z eqn:C.
    - split; [apply Rmult_le_pos; lra |]. apply Rmult_le_compat_r; lra.
    - apply Z.eqb_neq in C. replace (Z.shiftr r 10 + 127 - 150)%Z with (-149)%Z by lia.
      split; [apply Rmult_le_pos; lra |]. apply Rmult_le_compat_r; lra. }
  assert (0 <= b2r (exp_s x1) * b2r f <= bpow radix2 (-124)) as HQ.
  { change (bpow radix2 (-124)) with (bpow radix2 (1 + -125)). rewrite bpow_plus. change (bpow radix2 1) with 2.
    split; [apply Rmult_le_pos; lra | nra]. }
  destruct (mult_ok (exp_s x1) f F5 Ff) as [Ew Fw].
  { rewrite Rabs_pos_eq by apply HQ. eapply Rle_trans; [apply HQ |]. apply bpow_le. lia. }
  split; [exact Fw |]. rewrite Ew. unfold rnd. split.
  - apply round_ge_generic; [apply FLT_exp_valid; reflexivity | apply valid_rnd_N | apply generic_format_0 | apply HQ].
  - apply round_le_generic; [apply FLT_exp_valid; reflexivity | apply valid_rnd_N | | apply HQ].
    apply generic_format_bpow. unfold SpecFloat.fexp, SpecFloat.emin. lia.
Qed.
