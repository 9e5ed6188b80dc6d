(** fast_lgamma_nu against lg (nu/2 + 1/2) - lg (nu/2). *)
From Coq Require Import List Reals Lra Lia ZArith Bool.
From Flocq Require Import Core BinarySingleNaN Binary Bits.
From Verif.model Require Import Base FastExp FloatNum Special FastLgamma.
From Verif.spec Require Import DrawSpec.
From Verif.proof Require Import FastExpProof SpecialProof FloatScoresProof FloatPoly LgammaSeg NuSeg FastLgammaProof.
Import ListNotations.
Local Open Scope R_scope.

Notation w24 := (bpow radix2 (-24)).
Definition r32 := rel 24.
Lemma mul32 x y qa qb j k : fin32 x = true -> fin32 y = true -> r32 j (v32 x) qa -> r32 k (v32 y) qb -> 0 <= j <= 10 -> 0 <= k <= 10 ->
  qa * qb = 0 \/ bpow radix2 (-125) <= Rabs (qa * qb) -> Rabs (qa * qb) <= bpow radix2 126 ->
  fin32 (b32_mult mode_NE x y) = true /\ r32 (j + k + 2) (v32 (b32_mult mode_NE x y)) (qa * qb).
Proof. intros. refine (mul_rel 24 128 _ _ _ binop_nan_pl32 x y qa qb j k _ _ _ _ _ _ _ _); try assumption; lia. Qed.
Lemma r32_weaken j k p q : j <= k -> r32 j p q -> r32 k p q.
Proof.
  unfold r32, rel. intros H R. eapply Rle_trans; [exact R |]. apply Rmult_le_compat_r; [apply Rabs_pos |].
  apply Rmult_le_compat_r; [apply bpow_ge_0 | exact H].
Qed.
Lemma add32 x y qa qb A e k : fin32 x = true -> fin32 y = true -> Rabs (v32 x - qa) <= e * w24 * A -> r32 k (v32 y) qb -> Rabs qa <= A -> k <= e -> 0 <= e <= 12 ->
  A + Rabs qb <= bpow radix2 126 ->
  fin32 (b32_plus mode_NE x y) = true /\ Rabs (v32 (b32_plus mode_NE x y) - (qa + qb)) <= (e + 2) * w24 * (A + Rabs qb).
Proof.
  intros. refine (add_err 24 128 _ _ _ binop_nan_pl32 x y qa qb A e _ _ _ _ _ _ _); try assumption; try lia.
  eapply r32_weaken; eassumption.
Qed.
Definition ok_prod (z : R) : Prop := z = 0 \/ bpow radix2 (-125) <= Rabs z.
Lemma eval3_err (a3 a2 a1 a0 y : binary32) : List.Forall (fun a => fin32 a = true) [a3; a2; a1; a0] -> fin32 y = true ->
  let x := v32 y in bpow radix2 (-4) <= x <= bpow radix2 32 ->
  ok_prod (v32 a1 * x) -> ok_prod (v32 a2 * x ^ 2) -> ok_prod (v32 a3 * x ^ 3) ->
  let A := Rabs (v32 a0) + Rabs (v32 a1 * x) + Rabs (v32 a2 * x ^ 2) + Rabs (v32 a3 * x ^ 3) in A <= 128 ->
  fin32 (poly_eval_3 a3 a2 a1 a0 y) = true /\
  Rabs (v32 (poly_eval_3 a3 a2 a1 a0 y) - (v32 a0 + v32 a1 * x + v32 a2 * x ^ 2 + v32 a3 * x ^ 3)) <= 8 * w24 * A.
Proof.
  intros HA Fy x Hx P1 P2 P3 A LA. unfold poly_eval_3.
  inversion_clear HA as [|? ? F3 HA3]. inversion_clear HA3 as [|? ? F2 HA2]. inversion_clear HA2 as [|? ? F1 HA1]. inversion_clear HA1 as [|? ? F0 _].
  set (y2 := b32_mult mode_NE y y). set (y3 := b32_mult mode_NE y2 y).
  assert (0 < x) as X0 by (pose proof (bpow_gt_0 radix2 (-4)); lra).
  assert (forall n, (n <= 3)%nat -> bpow radix2 (-12) <= x ^ n <= bpow radix2 96) as PX.
  { intros n Hn. assert (bpow radix2 (-12) <= bpow radix2 (-4) ^ n /\ bpow radix2 32 ^ n <= bpow radix2 96) as [U V].
    { destruct n as [|[|[|[|n]]]]; [| | | | lia]; cbn; lra. }
    split; [apply Rle_trans with (bpow radix2 (-4) ^ n); [exact U | apply pow_incr; split; [apply bpow_ge_0 | lra]] |
            apply Rle_trans with (bpow radix2 32 ^ n); [apply pow_incr; lra | exact V]]. }
  assert (forall n, (n <= 3)%nat -> ok_prod (x ^ n) /\ Rabs (x ^ n) <= bpow radix2 126) as OX.
  { intros n Hn. destruct (PX n Hn) as [U V]. assert (0 <= x ^ n) by (apply pow_le; lra). rewrite Rabs_pos_eq by assumption. split.
    - right. rewrite Rabs_pos_eq by assumption. apply Rle_trans with (bpow radix2 (-12)); [apply bpow_le; lia | exact U].
    - apply Rle_trans with (bpow radix2 96); [exact V | apply bpow_le; lia]. }
  assert (128 <= bpow radix2 126) as B126 by (apply Rle_trans with (bpow radix2 7); [cbn; lra | apply bpow_le; lia]).
  assert (R1 : r32 0 (v32 y) x) by apply rel_0.
  assert (fin32 y2 = true /\ r32 2 (v32 y2) (x ^ 2)) as [Fy2 R2].
  { destruct (OX 2%nat ltac:(lia)) as [P Q]. replace (x ^ 2) with (x * x) in * by ring.
    destruct (mul32 y y x x 0 0 Fy Fy R1 R1 ltac:(lra) ltac:(lra) P Q) as [G1 G2]. split; [exact G1 |]. revert G2. apply r32_weaken. lra. }
  assert (fin32 y3 = true /\ r32 4 (v32 y3) (x ^ 3)) as [Fy3 R3].
  { destruct (OX 3%nat ltac:(lia)) as [P Q]. replace (x ^ 3) with (x ^ 2 * x) in * by ring.
    destruct (mul32 y2 y (x ^ 2) x 2 0 Fy2 Fy R2 R1 ltac:(lra) ltac:(lra) P Q) as [G1 G2]. split; [exact G1 |]. revert G2. apply r32_weaken. lra. }
  pose proof (Rabs_pos (v32 a0)). pose proof (Rabs_pos (v32 a1 * x)). pose proof (Rabs_pos (v32 a2 * x ^ 2)). pose proof (Rabs_pos (v32 a3 * x ^ 3)).
  destruct (mul32 y a1 x (v32 a1) 0 0 Fy F1 R1 (rel_0 24 _) ltac:(lra) ltac:(lra)) as [G1 S1];
    [rewrite Rmult_comm; exact P1 | rewrite Rmult_comm; unfold A in LA; lra |].
  destruct (mul32 y2 a2 (x ^ 2) (v32 a2) 2 0 Fy2 F2 R2 (rel_0 24 _) ltac:(lra) ltac:(lra)) as [G2 S2];
    [rewrite Rmult_comm; exact P2 | rewrite Rmult_comm; unfold A in LA; lra |].
  destruct (mul32 y3 a3 (x ^ 3) (v32 a3) 4 0 Fy3 F3 R3 (rel_0 24 _) ltac:(lra) ltac:(lra)) as [G3 S3];
    [rewrite Rmult_comm; exact P3 | rewrite Rmult_comm; unfold A in LA; lra |].
  rewrite (Rmult_comm x) in S1. rewrite (Rmult_comm (x ^ 2)) in S2. rewrite (Rmult_comm (x ^ 3)) in S3.
  assert (tri : forall p q B, Rabs p <= B -> Rabs (p + q) <= B + Rabs q) by (intros p q B HB; eapply Rle_trans; [apply Rabs_triang |]; lra).
  assert (Z0 : Rabs (v32 a0 - v32 a0) <= 2 * w24 * Rabs (v32 a0)).
  { rewrite Rminus_eq_0, Rabs_R0. apply Rmult_le_pos; [| apply Rabs_pos]. pose proof (bpow_ge_0 radix2 (-24)). lra. }
  unfold A in *.
  destruct (add32 _ _ _ _ _ _ _ F0 G1 Z0 S1 (Rle_refl _)) as [K1 E1]; [lra | lra | lra |].
  pose proof (tri (v32 a0) (v32 a1 * x) _ (Rle_refl _)) as T1.
  destruct (add32 _ _ _ _ _ _ _ K1 G2 E1 S2 T1) as [K2 E2]; [lra | lra | lra |].
  pose proof (tri _ (v32 a2 * x ^ 2) _ T1) as T2.
  destruct (add32 _ _ _ _ _ _ _ K2 G3 E2 S3 T2) as [K3 E3]; [lra | lra | lra |].
  split; [exact K3 |]. replace 8 with (2 + 2 + 2 + 2) by ring. exact E3.
Qed.
Lemma v_1_16 : v32 b_1_16 = / 16.
Proof. unfold b_1_16. rewrite <- coef_val. replace (coef 1031798784) with (8388608, -27)%Z by (vm_compute; reflexivity). unfold cval. cbn. lra. Qed.

Theorem lgamma_nu_accuracy lg libm y : is_log_gamma lg -> fin32 y = true -> / 16 <= v32 y < bpow radix2 32 ->
  exists r, fast_lgamma_nu32 libm y = Ok r /\ fin32 r = true /\
    Rabs (v32 r - (lg (v32 y / 2 + / 2) - lg (v32 y / 2))) <= 16 / 1000.
Proof.
  intros HG F Hy. set (x := v32 y) in *.
  assert (bpow radix2 (-126) <= x) as Hn by (apply Rle_trans with (bpow radix2 (-4)); [apply bpow_le; lia | cbn; lra]).
  destruct (octave y F Hn) as (c & Ec & Hc). fold x in Hc.
  assert (-4 <= c <= 31)%Z as Rc.
  { split.
    - assert (-4 < c + 1)%Z; [| lia]. apply (lt_bpow radix2). change (bpow radix2 (-4)) with (/ 16). lra.
    - assert (c < 32)%Z; [| lia]. apply (lt_bpow radix2). lra. }
  pose proof (nu_oct_ok c Rc) as S. pose proof (nu_row lg HG c x Rc ltac:(lra)) as Q. cbv zeta in Q. unfold nu_oct in S. cbv zeta in S.
  apply andb_prop in S as [S _]. apply andb_prop in S as [S _]. apply andb_prop in S as [S SP]. apply andb_prop in S as [SS SF].
  unfold fast_lgamma_nu32.
  assert (b32_ltb y b_1_16 = false) as ->.
  { destruct (b32_ltb y b_1_16) eqn:E; [| reflexivity]. apply ltb_ok in E; [| exact F | reflexivity]. exfalso. revert E. apply Rle_not_lt. fold x. rewrite v_1_16. lra. }
  assert (b32_leb b_2_32 y = false) as ->.
  { destruct (b32_leb b_2_32 y) eqn:E; [| reflexivity]. apply leb_ok in E; [| reflexivity | exact F]. exfalso. revert E. apply Rlt_not_le. fold x. rewrite v_2_32. lra. }
  cbn [orb]. rewrite Ec. cbn [obind]. unfold coeff. revert SS SF SP Q. unfold row4. set (j := Z.quot (c + 4) 2).
  destruct (zget lgamma_nu_coeff_bits (j * 4)) as [b3| |]; [| discriminate | discriminate].
  destruct (zget lgamma_nu_coeff_bits (j * 4 + 1)) as [b2| |]; [| discriminate | discriminate].
  destruct (zget lgamma_nu_coeff_bits (j * 4 + 2)) as [b1| |]; [| discriminate | discriminate].
  destruct (zget lgamma_nu_coeff_bits (j * 4 + 3)) as [b0| |]; [| discriminate | discriminate].
  cbn [obind]. intros _ SF SP [Q1 Q2]. rewrite forallb_forall in SF.
  cbn [map combine forallb fst snd] in SP. apply andb_prop in SP as [_ SP]. apply andb_prop in SP as [SP1 SP]. apply andb_prop in SP as [SP2 SP]. apply andb_prop in SP as [SP3 _].
  assert (0 < x) as X0 by lra.
  assert (forall b i, ((fst (coef b) =? 0)%Z || (-124 <=? lead (coef b) + Z.of_nat i * c)%Z) = true -> ok_prod (v32 (b32_of_bits b) * x ^ i)) as OP.
  { intros b i Hb. rewrite <- coef_val. apply orb_true_iff in Hb as [Hb | Hb].
    - left. apply Z.eqb_eq in Hb. unfold cval. rewrite Hb. ring.
    - destruct (Z.eq_dec (fst (coef b)) 0) as [Z | N]; [left; unfold cval; rewrite Z; ring | right].
      apply Z.leb_le in Hb. rewrite Rabs_mult, (Rabs_pos_eq (x ^ i)) by (apply pow_le; lra).
      apply Rle_trans with (bpow radix2 (lead (coef b)) * bpow radix2 (Z.of_nat i * c)).
      + rewrite <- bpow_plus. apply bpow_le. lia.
      + apply Rmult_le_compat; try apply bpow_ge_0; [now apply lead_le |].
        replace (bpow radix2 (Z.of_nat i * c)) with (bpow radix2 c ^ i).
        * apply pow_incr. split; [apply bpow_ge_0 | lra].
        * clear. induction i as [|i IH]; [reflexivity |]. cbn [pow]. rewrite IH, <- bpow_plus. f_equal. lia. }
  assert (In b0 [b0; b1; b2; b3] /\ In b1 [b0; b1; b2; b3] /\ In b2 [b0; b1; b2; b3] /\ In b3 [b0; b1; b2; b3]) as (I0 & I1 & I2 & I3) by (cbn; tauto).
  cbn [map hval] in Q1, Q2. rewrite !cabs_val, !coef_val in Q2. rewrite !coef_val in Q1.
  pose proof (OP b1 1%nat SP1) as O1. pose proof (OP b2 2%nat SP2) as O2. pose proof (OP b3 3%nat SP3) as O3. rewrite pow_1 in O1.
  destruct (eval3_err (b32_of_bits b3) (b32_of_bits b2) (b32_of_bits b1) (b32_of_bits b0) y) as [Fr Er]; fold x; try assumption.
  - repeat constructor; now apply SF.
  - change (bpow radix2 (-4)) with (/ 16). lra.
  - rewrite (Rabs_mult _ x), !(Rabs_mult _ (x ^ _)), (Rabs_pos_eq x), !(Rabs_pos_eq (x ^ _)) by (try apply pow_le; lra). lra.
  - fold x in Er. exists (poly_eval_3 (b32_of_bits b3) (b32_of_bits b2) (b32_of_bits b1) (b32_of_bits b0) y). split; [reflexivity |]. split; [exact Fr |].
    set (r := v32 (poly_eval_3 _ _ _ _ y)) in *. clearbody r.
    rewrite (Rabs_mult _ x), !(Rabs_mult _ (x ^ _)), (Rabs_pos_eq x), !(Rabs_pos_eq (x ^ _)) in Er by (try apply pow_le; lra).
    set (D := lg (x / 2 + / 2) - lg (x / 2)) in *. clearbody D.
    set (z0 := v32 (b32_of_bits b0)) in *. set (z1 := v32 (b32_of_bits b1)) in *. set (z2 := v32 (b32_of_bits b2)) in *. set (z3 := v32 (b32_of_bits b3)) in *.
    clearbody z0 z1 z2 z3.
    set (A := Rabs z0 + Rabs z1 * x + Rabs z2 * x ^ 2 + Rabs z3 * x ^ 3) in *.
    assert (A <= 128) as LA by (unfold A; lra).
    assert (8 * w24 * A <= 8 * w24 * 128) as E8 by (apply Rmult_le_compat_l; [pose proof (bpow_ge_0 radix2 (-24)); lra | exact LA]).
    change w24 with (/ 16777216) in *. unfold tol in Q1. change (bpow radix2 (-20)) with (/ 1048576) in Q1.
    replace (r - D) with ((r - (z0 + z1 * x + z2 * x ^ 2 + z3 * x ^ 3)) + ((z0 + x * (z1 + x * (z2 + x * (z3 + x * 0)))) - D)) by ring.
    eapply Rle_trans; [apply Rabs_triang |]. lra.
Qed.
