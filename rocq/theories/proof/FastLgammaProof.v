(** fast_lgamma against the log-gamma function. *)
From Coq Require Import List Reals Lra Lia ZArith Bool.
From Flocq Require Import Core BinarySingleNaN Binary Bits.
From Verif.model Require Import Base FastExp FloatNum Special FastLgamma.
From Verif.spec Require Import DrawSpec.
From Verif.proof Require Import FastExpProof SpecialProof FloatScoresProof FloatPoly PolyCheck LogPoly LgammaSeg.
Import ListNotations.
Local Open Scope R_scope.

Notation fin64 := (is_finite 53 1024).
Notation v64 := (B2R 53 1024).
Notation fin32 := (is_finite 24 128).
Notation v32 := (B2R 24 128).

(** ** Conversions *)
Lemma fmt64 (x : binary32) : generic_format radix2 (SpecFloat.fexp 53 1024) (v32 x).
Proof.
  apply (generic_inclusion_mag radix2 (SpecFloat.fexp 24 128)); [| apply generic_format_B2R].
  intros _. unfold SpecFloat.fexp, SpecFloat.emin. lia.
Qed.
(** the value of an operand under [daz] *)
Definition normal (x : binary32) : Prop := v32 x = 0 \/ bpow radix2 (-126) <= Rabs (v32 x).
Lemma min_pos32 (x : binary32) : v32 x = 0 \/ bpow radix2 (-149) <= Rabs (v32 x).
Proof.
  destruct (Req_dec (v32 x) 0) as [E | N]; [now left | right].
  apply (abs_B2R_ge_emin 24 128 x). destruct x; cbn in *; congruence.
Qed.
Lemma digits_le m k : (0 <= k)%Z -> (Z.pos m < 2 ^ k)%Z <-> (Z.pos (SpecFloat.digits2_pos m) <= k)%Z.
Proof.
  intros Hk. rewrite Digits.Zpos_digits2_pos. rewrite (Digits.Zdigits_unique radix2 (Z.pos m) (Z.log2 (Z.pos m) + 1)).
  - rewrite Z.log2_lt_pow2 by lia. lia.
  - cbn [Z.abs]. pose proof (Z.log2_spec (Z.pos m) ltac:(lia)) as [A B].
    replace (Z.log2 (Z.pos m) + 1 - 1)%Z with (Z.log2 (Z.pos m)) by ring. exact (conj A B).
Qed.
Lemma canon m e : SpecFloat.bounded 24 128 m e = true -> (Z.pos m < 2 ^ 24)%Z /\ ((Z.pos m < 2 ^ 23)%Z -> e = -149)%Z /\ (-149 <= e <= 104)%Z.
Proof.
  intros H. apply Bool.andb_true_iff in H as [C D]. apply Zeq_bool_eq in C. apply Zle_bool_imp_le in D. unfold SpecFloat.fexp, SpecFloat.emin in C.
  rewrite !digits_le by lia. lia.
Qed.
Lemma subnormal_small s m e (H : SpecFloat.bounded 24 128 m e = true) : (Z.pos m < 2 ^ 23)%Z -> Rabs (v32 (B754_finite 24 128 s m e H)) < bpow radix2 (-126).
Proof.
  intros L. destruct (canon m e H) as (_ & C & _). specialize (C L). subst e. cbn [B2R]. rewrite <- F2R_Zabs, abs_cond_Zopp. cbn [Z.abs].
  unfold F2R. cbn [Fnum Fexp]. change (-126)%Z with (23 + -149)%Z. rewrite bpow_plus. apply Rmult_lt_compat_r; [apply bpow_gt_0 |].
  change (bpow radix2 23) with 8388608. apply IZR_lt. exact L.
Qed.
Lemma widen_val daz x : fin32 x = true -> (daz = true -> normal x) -> fin64 (widen daz x) = true /\ v64 (widen daz x) = v32 x.
Proof.
  intros F N. destruct x as [s|s|s p H|s m e H]; try discriminate; [now split |]. cbn [widen].
  destruct (daz && (Z.pos m <? 8388608)%Z) eqn:E.
  - exfalso. apply andb_prop in E as [-> E2]. apply Z.ltb_lt in E2. destruct (N eq_refl) as [Z | L].
    + revert Z. apply F2R_neq_0. destruct s; discriminate.
    + revert L. apply Rlt_not_le. now apply subnormal_small.
  - pose proof (binary_normalize_correct 53 1024 prec64 emax64 mode_NE (cond_Zopp s (Z.pos m)) e s) as C.
    change (F2R {| Fnum := cond_Zopp s (Z.pos m); Fexp := e |}) with (v32 (B754_finite 24 128 s m e H)) in C.
    set (x := B754_finite 24 128 s m e H) in *. rewrite (round_generic radix2 _ _ _ (fmt64 x)) in C.
    rewrite Rlt_bool_true in C.
    + destruct C as (C1 & C2 & _). split; [exact C2 | exact C1].
    + apply Rlt_trans with (bpow radix2 128); [apply abs_B2R_lt_emax | apply bpow_lt; reflexivity].
Qed.
Lemma narrow_val (x : binary64) : fin64 x = true -> Rabs (v64 x) <= bpow radix2 127 ->
  fin32 (narrow x) = true /\ Rabs (v32 (narrow x) - v64 x) <= u24 * Rabs (v64 x) + eta32.
Proof.
  intros F B. destruct x as [s|s|s p H|s m e H]; try discriminate.
  - cbn. split; [reflexivity |]. rewrite Rminus_0_r, Rabs_R0. pose proof eta32_pos. unfold u24. lra.
  - cbn [narrow]. pose proof (binary_normalize_correct 24 128 prec32 emax32 mode_NE (cond_Zopp s (Z.pos m)) e s) as C.
    change (F2R {| Fnum := cond_Zopp s (Z.pos m); Fexp := e |}) with (v64 (B754_finite 53 1024 s m e H)) in C.
    set (x := B754_finite 53 1024 s m e H) in *. change (round_mode mode_NE) with ZnearestE in C.
    change (round radix2 (SpecFloat.fexp 24 128) ZnearestE (v64 x)) with (rnd (v64 x)) in C.
    rewrite (no_overflow (v64 x) B) in C. destruct C as (C1 & C2 & _). split; [exact C2 |]. rewrite C1. apply rnd_err.
Qed.

(** ** The polynomial in double precision *)
Notation u53 := (bpow radix2 (-53)).
Definition r64 := rel 53.
Lemma mul64 x y qa qb j k : fin64 x = true -> fin64 y = true -> r64 j (v64 x) qa -> r64 k (v64 y) qb -> 0 <= j <= 10 -> 0 <= k <= 10 ->
  qa * qb = 0 \/ bpow radix2 (-1021) <= Rabs (qa * qb) -> Rabs (qa * qb) <= bpow radix2 1022 ->
  fin64 (b64_mult mode_NE x y) = true /\ r64 (j + k + 2) (v64 (b64_mult mode_NE x y)) (qa * qb).
Proof. intros. refine (mul_rel 53 1024 _ _ _ binop_nan_pl64 x y qa qb j k _ _ _ _ _ _ _ _); try assumption; lia. Qed.
Lemma add64 x y qa qb A e : fin64 x = true -> fin64 y = true -> Rabs (v64 x - qa) <= e * u53 * A -> r64 e (v64 y) qb -> Rabs qa <= A -> 0 <= e <= 12 ->
  A + Rabs qb <= bpow radix2 1022 ->
  fin64 (b64_plus mode_NE x y) = true /\ Rabs (v64 (b64_plus mode_NE x y) - (qa + qb)) <= (e + 2) * u53 * (A + Rabs qb).
Proof. intros. refine (add_err 53 1024 _ _ _ binop_nan_pl64 x y qa qb A e _ _ _ _ _ _ _); try assumption; lia. Qed.
Lemma r64_weaken j k p q : j <= k -> r64 j p q -> r64 k p q.
Proof.
  unfold r64, rel. intros H R. eapply Rle_trans; [exact R |]. apply Rmult_le_compat_r; [apply Rabs_pos |].
  apply Rmult_le_compat_r; [apply bpow_ge_0 | exact H].
Qed.

Lemma add64' x y qa qb A e k : fin64 x = true -> fin64 y = true -> Rabs (v64 x - qa) <= e * u53 * A -> r64 k (v64 y) qb -> Rabs qa <= A -> k <= e -> 0 <= e <= 12 ->
  A + Rabs qb <= bpow radix2 1022 ->
  fin64 (b64_plus mode_NE x y) = true /\ Rabs (v64 (b64_plus mode_NE x y) - (qa + qb)) <= (e + 2) * u53 * (A + Rabs qb).
Proof. intros. apply add64; try assumption. eapply r64_weaken; eassumption. Qed.

Definition sum6 (a5 a4 a3 a2 a1 a0 y : binary64) : binary64 :=
  let mul := b64_mult mode_NE in
  let add := b64_plus mode_NE in
  let y2 := mul y y in let y3 := mul y2 y in let y4 := mul y3 y in let y5 := mul y4 y in
  add (add (add (add (add a0 (mul a1 y)) (mul a2 y2)) (mul a3 y3)) (mul a4 y4)) (mul a5 y5).
Lemma lgamma_poly_eq daz a5 a4 a3 a2 a1 a0 y :
  lgamma_poly daz a5 a4 a3 a2 a1 a0 y = narrow (sum6 (widen daz a5) (widen daz a4) (widen daz a3) (widen daz a2) (widen daz a1) (widen daz a0) (widen daz y)).
Proof. unfold lgamma_poly, sum6. reflexivity. Qed.
Definition medium (a : R) : Prop := (a = 0 \/ bpow radix2 (-149) <= Rabs a) /\ Rabs a <= bpow radix2 128.
Lemma pow_bounds x n : 1 <= x <= bpow radix2 32 -> (n <= 5)%nat -> 1 <= x ^ n <= bpow radix2 160.
Proof.
  intros H Hn. split; [apply pow_R1_Rle; lra |]. apply Rle_trans with (bpow radix2 32 ^ n); [apply pow_incr; lra |].
  apply Rle_trans with (bpow radix2 32 ^ 5); [apply Rle_pow; [| lia]; cbn; lra |]. cbn. lra.
Qed.
Lemma medium_pow a x n : medium a -> 1 <= x <= bpow radix2 32 -> (n <= 5)%nat ->
  (a * x ^ n = 0 \/ bpow radix2 (-1021) <= Rabs (a * x ^ n)) /\ Rabs (a * x ^ n) <= bpow radix2 288.
Proof.
  intros [L U] Hx Hn. pose proof (pow_bounds x n Hx Hn) as [P1 P2]. rewrite Rabs_mult, (Rabs_pos_eq (x ^ n)) by lra. split.
  - destruct L as [-> | L]; [left; ring | right]. apply Rle_trans with (bpow radix2 (-149) * 1); [rewrite Rmult_1_r; apply bpow_le; lia |].
    apply Rmult_le_compat; try lra. apply bpow_ge_0.
  - change 288%Z with (128 + 160)%Z. rewrite bpow_plus. apply Rmult_le_compat; try lra. apply Rabs_pos.
Qed.
Lemma sum6_err (a5 a4 a3 a2 a1 a0 y : binary64) :
  List.Forall (fun a => fin64 a = true /\ medium (v64 a)) [a5; a4; a3; a2; a1; a0] -> fin64 y = true -> 1 <= v64 y <= bpow radix2 32 ->
  let x := v64 y in
  let A := Rabs (v64 a0) + Rabs (v64 a1 * x) + Rabs (v64 a2 * x ^ 2) + Rabs (v64 a3 * x ^ 3) + Rabs (v64 a4 * x ^ 4) + Rabs (v64 a5 * x ^ 5) in
  fin64 (sum6 a5 a4 a3 a2 a1 a0 y) = true /\
  Rabs (v64 (sum6 a5 a4 a3 a2 a1 a0 y) - (v64 a0 + v64 a1 * x + v64 a2 * x ^ 2 + v64 a3 * x ^ 3 + v64 a4 * x ^ 4 + v64 a5 * x ^ 5)) <= 12 * u53 * A.
Proof.
  intros HA Fy Hx x A. unfold sum6. fold x in Hx.
  inversion_clear HA as [|? ? [F5 M5] HA5]. inversion_clear HA5 as [|? ? [F4 M4] HA4]. inversion_clear HA4 as [|? ? [F3 M3] HA3].
  inversion_clear HA3 as [|? ? [F2 M2] HA2]. inversion_clear HA2 as [|? ? [F1 M1] HA1]. inversion_clear HA1 as [|? ? [F0 M0] _].
  assert (medium 1) as Mo.
  { split; [right | ]; rewrite Rabs_R1; [apply (bpow_le radix2 (-149) 0); lia | apply (bpow_le radix2 0 128); lia]. }
  assert (forall n, (n <= 5)%nat -> (x ^ n = 0 \/ bpow radix2 (-1021) <= Rabs (x ^ n)) /\ Rabs (x ^ n) <= bpow radix2 288) as PX.
  { intros n Hn. rewrite <- (Rmult_1_l (x ^ n)). now apply medium_pow. }
  assert (bpow radix2 288 <= bpow radix2 1022) as B288 by (apply bpow_le; lia).
  set (y2 := b64_mult mode_NE y y). set (y3 := b64_mult mode_NE y2 y). set (y4 := b64_mult mode_NE y3 y). set (y5 := b64_mult mode_NE y4 y).
  assert (R1 : r64 0 (v64 y) x) by apply rel_0.
  assert (fin64 y2 = true /\ r64 2 (v64 y2) (x ^ 2)) as [Fy2 R2].
  { destruct (PX 2%nat ltac:(lia)) as [P Q]. replace (x ^ 2) with (x * x) in * by ring.
    destruct (mul64 y y x x 0 0 Fy Fy R1 R1 ltac:(lra) ltac:(lra) P ltac:(lra)) as [G1 G2]. split; [exact G1 |]. revert G2. apply r64_weaken. lra. }
  assert (fin64 y3 = true /\ r64 4 (v64 y3) (x ^ 3)) as [Fy3 R3].
  { destruct (PX 3%nat ltac:(lia)) as [P Q]. replace (x ^ 3) with (x ^ 2 * x) in * by ring.
    destruct (mul64 y2 y (x ^ 2) x 2 0 Fy2 Fy R2 R1 ltac:(lra) ltac:(lra) P ltac:(lra)) as [G1 G2]. split; [exact G1 |]. revert G2. apply r64_weaken. lra. }
  assert (fin64 y4 = true /\ r64 6 (v64 y4) (x ^ 4)) as [Fy4 R4].
  { destruct (PX 4%nat ltac:(lia)) as [P Q]. replace (x ^ 4) with (x ^ 3 * x) in * by ring.
    destruct (mul64 y3 y (x ^ 3) x 4 0 Fy3 Fy R3 R1 ltac:(lra) ltac:(lra) P ltac:(lra)) as [G1 G2]. split; [exact G1 |]. revert G2. apply r64_weaken. lra. }
  assert (fin64 y5 = true /\ r64 8 (v64 y5) (x ^ 5)) as [Fy5 R5].
  { destruct (PX 5%nat ltac:(lia)) as [P Q]. replace (x ^ 5) with (x ^ 4 * x) in * by ring.
    destruct (mul64 y4 y (x ^ 4) x 6 0 Fy4 Fy R4 R1 ltac:(lra) ltac:(lra) P ltac:(lra)) as [G1 G2]. split; [exact G1 |]. revert G2. apply r64_weaken. lra. }
  assert (T : forall a b i k, fin64 a = true -> medium (v64 a) -> fin64 b = true -> r64 k (v64 b) (x ^ i) -> (i <= 5)%nat -> 0 <= k <= 8 ->
     fin64 (b64_mult mode_NE a b) = true /\ r64 (k + 2) (v64 (b64_mult mode_NE a b)) (v64 a * x ^ i) /\ Rabs (v64 a * x ^ i) <= bpow radix2 288).
  { intros a b i k Fa Ma Fb Rb Hi Hk. destruct (medium_pow (v64 a) x i Ma Hx Hi) as [P Q].
    destruct (mul64 a b (v64 a) (x ^ i) 0 k Fa Fb (rel_0 53 _) Rb ltac:(lra) ltac:(lra) P ltac:(lra)) as [G1 G2].
    split; [exact G1 |]. split; [| exact Q]. revert G2. apply r64_weaken. lra. }
  assert (r64 0 (v64 y) (x ^ 1)) as R1' by (rewrite pow_1; exact R1).
  destruct (T a1 y 1%nat 0 F1 M1 Fy R1' ltac:(lia) ltac:(lra)) as (G1 & S1 & B1). rewrite pow_1 in S1, B1.
  destruct (T a2 y2 2%nat 2 F2 M2 Fy2 R2 ltac:(lia) ltac:(lra)) as (G2 & S2 & B2).
  destruct (T a3 y3 3%nat 4 F3 M3 Fy3 R3 ltac:(lia) ltac:(lra)) as (G3 & S3 & B3).
  destruct (T a4 y4 4%nat 6 F4 M4 Fy4 R4 ltac:(lia) ltac:(lra)) as (G4 & S4 & B4).
  destruct (T a5 y5 5%nat 8 F5 M5 Fy5 R5 ltac:(lia) ltac:(lra)) as (G5 & S5 & B5).
  assert (Rabs (v64 a0) <= bpow radix2 288) as B0 by (apply Rle_trans with (bpow radix2 128); [apply M0 | apply bpow_le; lia]).
  assert (8 * bpow radix2 288 <= bpow radix2 1022) as BB.
  { apply Rle_trans with (bpow radix2 (3 + 288)); [rewrite bpow_plus; right; reflexivity | apply bpow_le; lia]. }
  pose proof (Rabs_pos (v64 a0)). pose proof (Rabs_pos (v64 a1 * x)). pose proof (Rabs_pos (v64 a2 * x ^ 2)). pose proof (Rabs_pos (v64 a3 * x ^ 3)).
  pose proof (Rabs_pos (v64 a4 * x ^ 4)). pose proof (Rabs_pos (v64 a5 * x ^ 5)). pose proof (bpow_ge_0 radix2 288).
  assert (tri : forall p q B, Rabs p <= B -> Rabs (p + q) <= B + Rabs q) by (intros p q B HB; eapply Rle_trans; [apply Rabs_triang |]; lra).
  assert (Z0 : Rabs (v64 a0 - v64 a0) <= 2 * u53 * Rabs (v64 a0)).
  { rewrite Rminus_eq_0, Rabs_R0. apply Rmult_le_pos; [| apply Rabs_pos]. pose proof (bpow_ge_0 radix2 (-53)). lra. }
  destruct (add64 a0 (b64_mult mode_NE a1 y) (v64 a0) (v64 a1 * x) (Rabs (v64 a0)) 2 F0 G1 Z0) as [K1 E1].
  { revert S1. apply r64_weaken. lra. } { apply Rle_refl. } { lra. } { lra. }
  pose proof (tri (v64 a0) (v64 a1 * x) _ (Rle_refl _)) as T1.
  destruct (add64' _ _ _ _ _ _ _ K1 G2 E1 S2 T1) as [K2 E2]; [lra | lra | lra |].
  pose proof (tri _ (v64 a2 * x ^ 2) _ T1) as T2.
  destruct (add64' _ _ _ _ _ _ _ K2 G3 E2 S3 T2) as [K3 E3]; [lra | lra | lra |].
  pose proof (tri _ (v64 a3 * x ^ 3) _ T2) as T3.
  destruct (add64' _ _ _ _ _ _ _ K3 G4 E3 S4 T3) as [K4 E4]; [lra | lra | lra |].
  pose proof (tri _ (v64 a4 * x ^ 4) _ T3) as T4.
  destruct (add64' _ _ _ _ _ _ _ K4 G5 E4 S5 T4) as [K5 E5]; [lra | lra | lra |].
  split; [exact K5 |]. replace 12 with (2 + 2 + 2 + 2 + 2 + 2) by ring. exact E5.
Qed.

(** ** Which row *)
Lemma octave (y : binary32) : fin32 y = true -> bpow radix2 (-126) <= v32 y ->
  exists c, int_log2 (bits_of_b32 y) = Ok c /\ bpow radix2 c <= v32 y < bpow radix2 (c + 1).
Proof.
  intros F L. pose proof (bpow_gt_0 radix2 (-126)) as B0. destruct y as [s|s|s p H|s m e H]; try discriminate; [cbn in L; lra |].
  destruct s.
  { exfalso. assert (v32 (B754_finite 24 128 true m e H) < 0); [| lra]. cbn [B2R]. apply F2R_lt_0. reflexivity. }
  destruct (canon m e H) as (C1 & C2 & C3).
  assert (2 ^ 23 <= Z.pos m)%Z as C4.
  { apply Z.nlt_ge. intros S. pose proof (subnormal_small false m e H S) as Q. rewrite Rabs_pos_eq in Q by lra. lra. }
  exists (e + 23)%Z. split.
  - assert (bits_of_b32 (B754_finite 24 128 false m e H) = (e + 150) * 8388608 + (Z.pos m - 8388608))%Z as E.
    { unfold bits_of_b32, bits_of_binary_float. change (Z.pow 2 23) with 8388608%Z in *.
      rewrite (proj2 (Z.leb_le 0 (Z.pos m - 8388608)) ltac:(lia)). unfold join_bits. rewrite Z.shiftl_mul_pow2 by lia. change (2 ^ 23)%Z with 8388608%Z.
      change (SpecFloat.emin (23 + 1) (2 ^ (8 - 1)))%Z with (-149)%Z. f_equal. lia. }
    rewrite E. change (2 ^ 23)%Z with 8388608%Z in *. change (2 ^ 24)%Z with 16777216%Z in *.
    rewrite int_log2_normal by lia. f_equal. rewrite Z.div_add_l by lia. rewrite Z.div_small by lia. lia.
  - cbn [B2R cond_Zopp]. unfold F2R. cbn [Fnum Fexp]. split.
    + rewrite Z.add_comm, bpow_plus. apply Rmult_le_compat_r; [apply bpow_ge_0 |]. apply (IZR_le (2 ^ 23)). exact C4.
    + replace (e + 23 + 1)%Z with (24 + e)%Z by ring. rewrite bpow_plus. apply Rmult_lt_compat_r; [apply bpow_gt_0 |]. apply (IZR_lt _ (2 ^ 24)). exact C1.
Qed.
Lemma coef_fin_val b : cval (coef b) = v32 (b32_of_bits b).
Proof. apply coef_val. Qed.
Lemma medium32 (x : binary32) : medium (v32 x).
Proof. split; [apply min_pos32 | left; apply abs_B2R_lt_emax]. Qed.
Lemma mant_normal b : is_finite 24 128 (b32_of_bits b) = true -> (8388608 <=? Z.abs (fst (coef b)))%Z = true -> normal (b32_of_bits b).
Proof.
  intros F H. apply Z.leb_le in H. unfold coef in H. destruct (b32_of_bits b) as [s|s|s p Q|s m e Q]; try discriminate; [now left |]. right.
  destruct (canon m e Q) as (_ & _ & C). cbn [fst] in H. rewrite abs_cond_Zopp in H. cbn [Z.abs] in H.
  cbn [B2R]. rewrite <- F2R_Zabs, abs_cond_Zopp. cbn [Z.abs]. unfold F2R. cbn [Fnum Fexp].
  apply Rle_trans with (bpow radix2 (23 + e)); [apply bpow_le; lia |]. rewrite bpow_plus. apply Rmult_le_compat_r; [apply bpow_ge_0 |].
  apply (IZR_le 8388608). exact H.
Qed.

Lemma v_2_5 : v32 b_2_5 = 5 / 2.
Proof. unfold b_2_5. rewrite <- coef_val. replace (coef 1075838976) with (10485760, -22)%Z by (vm_compute; reflexivity). unfold cval. cbn. lra. Qed.
Lemma v_2_32 : v32 b_2_32 = bpow radix2 32.
Proof. unfold b_2_32. rewrite <- coef_val. replace (coef 1333788672) with (8388608, 9)%Z by (vm_compute; reflexivity). unfold cval. cbn. lra. Qed.

Lemma wrap s H A G q : Rabs (s - H) <= 12 * u53 * A -> Rabs (H - G) <= q * G -> A <= 64 * G -> A <= bpow radix2 100 -> bpow radix2 (-4) <= A -> H <= A ->
  0 <= q <= / 10000 -> Rabs s <= bpow radix2 127 /\ forall r, Rabs (r - s) <= u24 * Rabs s + eta32 -> Rabs (r - G) <= (q + bpow radix2 (-23)) * G.
Proof.
  intros E S1 S2 S3 LA HA Hq.
  assert (/ 1024 <= G) as LG by (change (bpow radix2 (-4)) with (/ 16) in LA; lra).
  assert (q * G <= / 10000 * G) by (apply Rmult_le_compat_r; lra).
  assert (12 * u53 * A <= / 1000000000000 * G) as E12 by (cbn; lra).
  assert (Rabs (s - G) <= q * G + / 1000000000000 * G) as E1.
  { replace (s - G) with ((s - H) + (H - G)) by ring. eapply Rle_trans; [apply Rabs_triang |]. lra. }
  assert (Rabs s <= (1 + / 1000) * G) as U1.
  { replace s with (G + (s - G)) by ring. eapply Rle_trans; [apply Rabs_triang |]. rewrite (Rabs_pos_eq G) by lra. lra. }
  assert (G <= 2 * bpow radix2 100) as UG by (apply Rabs_le_inv in S1; lra).
  split.
  - apply Rle_trans with (bpow radix2 2 * bpow radix2 100); [change (bpow radix2 2) with 4; pose proof (bpow_ge_0 radix2 100); lra |].
    rewrite <- bpow_plus. apply bpow_le. lia.
  - intros r Er. replace (r - G) with ((r - s) + (s - G)) by ring. eapply Rle_trans; [apply Rabs_triang |].
    pose proof eta32_pos. change (bpow radix2 (-23)) with (/ 8388608). unfold u24 in Er.
    assert (/ 16777216 * Rabs s <= / 16777216 * ((1 + / 1000) * G)) by (apply Rmult_le_compat_l; lra). lra.
Qed.

Theorem lgamma_accuracy lg daz libm y : is_log_gamma lg -> fin32 y = true -> 5 / 2 <= v32 y < bpow radix2 32 -> (daz = true -> v32 y < bpow radix2 30) ->
  exists c r, (1 <= c <= 31)%Z /\ bpow radix2 c <= v32 y < bpow radix2 (c + 1) /\ fast_lgamma32 daz libm y = Ok r /\ fin32 r = true /\
    Rabs (v32 r - lg (v32 y)) <= (IZR (eps c) * bpow radix2 (-30) + bpow radix2 (-23)) * lg (v32 y).
Proof.
  intros HG F Hy Hd. set (x := v32 y) in *.
  assert (bpow radix2 (-126) <= x) as Hn by (apply Rle_trans with (bpow radix2 0); [apply bpow_le; lia | cbn; lra]).
  destruct (octave y F Hn) as (c & Ec & Hc). fold x in Hc.
  assert (1 <= c <= 31)%Z as Rc.
  { split.
    - assert (1 < c + 1)%Z; [| lia]. apply (lt_bpow radix2). change (bpow radix2 1) with 2. lra.
    - assert (c < 32)%Z; [| lia]. apply (lt_bpow radix2). lra. }
  assert (daz = true -> c < 30)%Z as Hd'.
  { intros D. apply (lt_bpow radix2). specialize (Hd D). lra. }
  pose proof (seg_all_ok c Rc) as S. unfold seg_all in S.
  apply andb_prop in S as [S SN]. apply andb_prop in S as [S SL]. apply andb_prop in S as [S SF]. apply andb_prop in S as [SS SG].
  exists c. unfold fast_lgamma32.
  assert (b32_ltb y b_2_5 = false) as ->.
  { destruct (b32_ltb y b_2_5) eqn:E; [| reflexivity]. apply ltb_ok in E; [| exact F | reflexivity]. exfalso. revert E. apply Rle_not_lt. fold x.
    rewrite v_2_5. lra. }
  assert (b32_leb b_2_32 y = false) as ->.
  { destruct (b32_leb b_2_32 y) eqn:E; [| reflexivity]. apply leb_ok in E; [| reflexivity | exact F]. exfalso. revert E. apply Rlt_not_le. fold x.
    rewrite v_2_32. lra. }
  cbn [orb]. rewrite Ec. cbn [obind]. unfold coeff. revert SS SG SF SL SN. unfold row_bits.
  destruct (zget lgamma_coeff_bits (c * 6)) as [b5| |]; [| discriminate | discriminate].
  destruct (zget lgamma_coeff_bits (c * 6 + 1)) as [b4| |]; [| discriminate | discriminate].
  destruct (zget lgamma_coeff_bits (c * 6 + 2)) as [b3| |]; [| discriminate | discriminate].
  destruct (zget lgamma_coeff_bits (c * 6 + 3)) as [b2| |]; [| discriminate | discriminate].
  destruct (zget lgamma_coeff_bits (c * 6 + 4)) as [b1| |]; [| discriminate | discriminate].
  destruct (zget lgamma_coeff_bits (c * 6 + 5)) as [b0| |]; [| discriminate | discriminate].
  cbn [obind]. intros _ SG SF SL SN.
  rewrite forallb_forall in SF. set (bs := [b0; b1; b2; b3; b4; b5]) in *.
  set (k := (c - 2)%Z) in *. set (w := x * bpow radix2 (- k) - 6).
  assert (bpow radix2 k * (6 + w) = x) as Ew.
  { unfold w. replace (6 + (x * bpow radix2 (- k) - 6)) with (x * bpow radix2 (- k)) by ring.
    replace (bpow radix2 k * (x * bpow radix2 (- k))) with (x * (bpow radix2 k * bpow radix2 (- k))) by ring.
    rewrite <- bpow_plus. replace (k + - k)%Z with 0%Z by lia. cbn [bpow]. ring. }
  assert (IZR (if c =? 1 then -1 else -2)%Z <= w <= 2) as Hw.
  { pose proof (bpow_gt_0 radix2 (- k)) as Q0.
    assert (bpow radix2 c * bpow radix2 (- k) = 4) as Q1 by (rewrite <- bpow_plus; replace (c + - k)%Z with 2%Z by lia; reflexivity).
    assert (bpow radix2 (c + 1) * bpow radix2 (- k) = 8) as Q2 by (rewrite <- bpow_plus; replace (c + 1 + - k)%Z with 3%Z by lia; reflexivity).
    assert (bpow radix2 c * bpow radix2 (- k) <= x * bpow radix2 (- k)) by (apply Rmult_le_compat_r; lra).
    assert (x * bpow radix2 (- k) <= bpow radix2 (c + 1) * bpow radix2 (- k)) by (apply Rmult_le_compat_r; lra).
    unfold w. split; [| lra]. destruct (Z.eqb_spec c 1) as [E1 | _]; [| lra].
    replace (- k)%Z with 1%Z by lia. change (bpow radix2 1) with 2. lra. }
  assert (0 <= eps c < 2 ^ 30)%Z as He by (unfold eps; destruct (c =? 1)%Z, (c =? 2)%Z, (c =? 3)%Z; lia).
  pose proof (seg_sound lg (eps c) k (if c =? 1 then -1 else -2)%Z 2 (map coef bs) w HG SG ltac:(destruct (c =? 1)%Z; lia) ltac:(lia) He Hw) as S.
  cbv zeta in S. rewrite Ew in S. specialize (S ltac:(lra)). destruct S as (S1 & S2 & S3).
  assert (N : forall b, In b bs -> daz = true -> normal (b32_of_bits b)).
  { intros b Hb D. apply mant_normal; [now apply SF |]. specialize (Hd' D). destruct (Z.leb_spec 30 c); [lia |].
    cbn [orb] in SN. rewrite forallb_forall in SN. apply SN. now apply in_map. }
  assert (W : forall b, In b bs -> fin64 (widen daz (b32_of_bits b)) = true /\ v64 (widen daz (b32_of_bits b)) = cval (coef b)).
  { intros b Hb. rewrite coef_fin_val. apply widen_val; [now apply SF | now apply N]. }
  destruct (widen_val daz y F) as [Fd Vd]; [intros _; right; fold x; rewrite Rabs_pos_eq; lra |]. fold x in Vd.
  assert (List.Forall (fun a => fin64 a = true /\ medium (v64 a)) (map (fun b => widen daz (b32_of_bits b)) [b5; b4; b3; b2; b1; b0])) as FA.
  { apply List.Forall_forall. intros a Ha. apply in_map_iff in Ha as (b & <- & Hb).
    assert (In b bs) as Hb' by (unfold bs; cbn in *; tauto). destruct (W b Hb') as [W1 W2]. split; [exact W1 |]. rewrite W2, coef_fin_val. apply medium32. }
  destruct (sum6_err _ _ _ _ _ _ (widen daz y) FA Fd) as [Fs Es]; [rewrite Vd; lra |]. rewrite Vd in Es.
  rewrite (proj2 (W b0 ltac:(unfold bs; cbn; tauto))), (proj2 (W b1 ltac:(unfold bs; cbn; tauto))), (proj2 (W b2 ltac:(unfold bs; cbn; tauto))),
    (proj2 (W b3 ltac:(unfold bs; cbn; tauto))), (proj2 (W b4 ltac:(unfold bs; cbn; tauto))), (proj2 (W b5 ltac:(unfold bs; cbn; tauto))) in Es.
  set (s := sum6 _ _ _ _ _ _ _) in *.
  assert (Rabs (v64 s - hval (map coef bs) x) <= 12 * u53 * hval (map cabs (map coef bs)) x) as E.
  { unfold bs. cbn [map hval]. rewrite !cabs_val.
    match type of Es with Rabs (_ - ?p) <= _ * ?q =>
      match goal with |- Rabs (_ - ?p') <= _ * ?q' => replace p' with p by ring; replace q' with q; [exact Es |] end end.
    rewrite !(Rabs_mult _ (x ^ _)), !(Rabs_mult _ x), !(Rabs_pos_eq (x ^ _)) by (apply pow_le; lra). rewrite (Rabs_pos_eq x) by lra. ring. }
  assert (bpow radix2 (-4) <= hval (map cabs (map coef bs)) x) as LA.
  { unfold bs. cbn [map hval]. rewrite !cabs_val. cbn [map bs] in SL. apply andb_prop in SL as [SL SZ]. apply Z.leb_le in SL. apply negb_true_iff, Z.eqb_neq in SZ.
    apply Rle_trans with (Rabs (cval (coef b0))).
    - apply Rle_trans with (bpow radix2 (lead (coef b0))); [now apply bpow_le | now apply lead_le].
    - rewrite <- (Rplus_0_r (Rabs (cval (coef b0)))) at 1. apply Rplus_le_compat_l. apply Rmult_le_pos; [lra |].
      repeat (apply Rplus_le_le_0_compat; [apply Rabs_pos |]; apply Rmult_le_pos; [lra |]). apply Rle_refl. }
  assert (hval (map coef bs) x <= hval (map cabs (map coef bs)) x) as HA.
  { unfold bs. cbn [map hval]. rewrite !cabs_val.
    repeat (apply Rplus_le_compat; [apply Rle_abs |]; apply Rmult_le_compat_l; [lra |]). apply Rle_refl. }
  assert (0 <= IZR (eps c) * bpow radix2 (-30) <= / 10000) as Hq.
  { split; [apply Rmult_le_pos; [apply IZR_le; lia | apply bpow_ge_0] |]. unfold eps. destruct (c =? 1)%Z, (c =? 2)%Z, (c =? 3)%Z; cbn; lra. }
  destruct (wrap _ _ _ _ _ E S1 S2 S3 LA HA Hq) as [Bs K].
  destruct (narrow_val s Fs Bs) as [Fr Er].
  exists (narrow s). split; [exact Rc |]. split; [exact Hc |]. split; [unfold s; now rewrite lgamma_poly_eq |]. split; [exact Fr |]. exact (K _ Er).
Qed.
