(** Relative errors of positive floats, measured on logarithms. *)
From Coq Require Import List Reals Lra Lia ZArith Bool.
From Flocq Require Import Core BinarySingleNaN Binary Bits.
From Verif.model Require Import Base FastExp FloatNum FastLog.
From Verif.spec Require Import LogSpec.
From Verif.proof Require Import LnBounds FastExpProof FloatScoresProof FloatNichProof FastLogProof.
Import ListNotations.
Local Open Scope R_scope.

Definition e23 : R := / 8388608.
Definition usual (X : R) : Prop := bpow radix2 (-110) <= X <= bpow radix2 110.
Definition near (k : R) (x : binary32) (X : R) : Prop :=
  fin x = true /\ 0 < b2r x /\ 0 < X /\ 0 <= k <= 4000000 /\ Rabs (ln (b2r x) - ln X) <= k * e23.

Lemma ln_le' a b : 0 < a -> a <= b -> ln a <= ln b.
Proof. intros Ha [H | ->]; [left; now apply ln_increasing | lra]. Qed.
Lemma ln_sub a b : 0 < a -> 0 < b -> ln b - ln a <= (b - a) / a.
Proof.
  intros Ha Hb. replace ((b - a) / a) with (b / a - 1) by (field; lra).
  assert (0 < b / a) as P by (apply Rdiv_lt_0_compat; lra). assert (ln b - ln a = ln (b / a)) as -> by (unfold Rdiv; rewrite ln_mult, ln_Rinv; try lra; now apply Rinv_0_lt_compat).
  pose proof (exp_ineq1_le (ln (b / a))) as E. rewrite exp_ln in E by assumption. lra.
Qed.
Lemma ln_ratio a b h : 0 < a -> 0 <= h <= / 4 -> Rabs (b - a) <= h * a -> 0 < b /\ Rabs (ln b - ln a) <= h / (1 - h).
Proof.
  intros Ha Hh H. apply Rabs_le_inv in H. assert (h * a <= / 4 * a) by (apply Rmult_le_compat_r; lra). assert (0 < b) as Hb by lra. split; [exact Hb |].
  pose proof (ln_sub a b Ha Hb) as U. pose proof (ln_sub b a Hb Ha) as D.
  assert ((b - a) / a <= h) as U' by (apply Rmult_le_reg_r with a; [lra |]; unfold Rdiv; rewrite Rmult_assoc, Rinv_l; lra).
  assert (a - b <= h / (1 - h) * b) as Q.
  { assert ((1 - h) * a <= b) as P by lra. apply Rle_trans with (h * a); [lra |]. unfold Rdiv. rewrite Rmult_assoc. apply Rmult_le_compat_l; [lra |].
    apply Rmult_le_reg_l with (1 - h); [lra |]. rewrite <- Rmult_assoc, Rinv_r by lra. lra. }
  assert ((a - b) / b <= h / (1 - h)) as D' by (apply Rmult_le_reg_r with b; [lra |]; unfold Rdiv at 1; rewrite Rmult_assoc, Rinv_l; lra).
  assert (h <= h / (1 - h)) as HH.
  { apply Rmult_le_reg_r with (1 - h); [lra |]. unfold Rdiv. rewrite Rmult_assoc, Rinv_l by lra. pose proof (Rmult_le_pos h h ltac:(lra) ltac:(lra)). lra. }
  apply Rabs_le. lra.
Qed.
Lemma usual_pos X : usual X -> 0 < X.
Proof. intros [H _]. pose proof (bpow_gt_0 radix2 (-110)). lra. Qed.
Lemma rnd_near z : bpow radix2 (-112) <= z -> 0 < rnd z /\ Rabs (ln (rnd z) - ln z) <= e23.
Proof.
  intros L. pose proof (bpow_gt_0 radix2 (-112)) as P.
  assert (eta32 <= / 33554432 * z) as E.
  { apply Rle_trans with (bpow radix2 (-25) * bpow radix2 (-112)); [unfold eta32; rewrite <- bpow_plus; apply bpow_le; lia |].
    change (bpow radix2 (-25)) with (/ 33554432). apply Rmult_le_compat_l; lra. }
  pose proof (rnd_err z) as R. rewrite (Rabs_pos_eq z) in R by lra. unfold u24 in R.
  destruct (ln_ratio z (rnd z) (3 / 33554432) ltac:(lra) ltac:(lra) ltac:(lra)) as [A B]. split; [exact A |]. unfold e23. lra.
Qed.
Lemma ln_double x X k : 0 < x -> 0 < X -> 0 <= k <= 4000000 -> Rabs (ln x - ln X) <= k * e23 -> X / 2 <= x <= 2 * X.
Proof.
  intros P Q K H. assert (k * e23 <= / 2) as K2 by (unfold e23; lra). apply Rabs_le_inv in H.
  assert (/ 2 <= ln 2) as L2.
  { pose proof (ln_sub 2 1 ltac:(lra) ltac:(lra)) as S. rewrite ln_1 in S. lra. }
  split; apply Rnot_lt_le; intros C.
  - apply ln_increasing in C; [| exact P]. unfold Rdiv in C. rewrite ln_mult, ln_Rinv in C; lra.
  - apply ln_increasing in C; [| lra]. rewrite ln_mult in C; lra.
Qed.
Lemma near_double k x X : near k x X -> X / 2 <= b2r x <= 2 * X.
Proof. intros (_ & P & Q & K & H). now apply (ln_double _ _ k). Qed.
Lemma usual_range X x : usual X -> X / 2 <= x <= 2 * X -> bpow radix2 (-112) <= x /\ Rabs x <= bpow radix2 127.
Proof.
  intros [A B] H. pose proof (bpow_gt_0 radix2 (-110)).
  assert (bpow radix2 (-112) = bpow radix2 (-110) / 4) as E1 by (change (-112)%Z with (-110 + -2)%Z; rewrite bpow_plus; change (bpow radix2 (-2)) with (/ 4); lra).
  assert (2 * bpow radix2 110 <= bpow radix2 127) as E2 by (change 2 with (bpow radix2 1); rewrite <- bpow_plus; apply bpow_le; lia).
  split; [lra |]. rewrite Rabs_pos_eq; lra.
Qed.
Lemma near_weaken k l x X : near k x X -> k <= l <= 4000000 -> near l x X.
Proof. intros (A & B & C & D & E) H. repeat split; try assumption; try lra. eapply Rle_trans; [exact E |]. apply Rmult_le_compat_r; [unfold e23; lra | lra]. Qed.
Lemma near_round k (x : binary32) z Z : fin x = true -> b2r x = rnd z -> bpow radix2 (-112) <= z -> 0 < Z -> 0 <= k <= 3999999 ->
  Rabs (ln z - ln Z) <= k * e23 -> near (k + 1) x Z.
Proof.
  intros F E L P K H. destruct (rnd_near z L) as [A B]. rewrite <- E in A, B. repeat split; try assumption; try lra.
  replace (ln (b2r x) - ln Z) with ((ln (b2r x) - ln z) + (ln z - ln Z)) by ring. eapply Rle_trans; [apply Rabs_triang |]. lra.
Qed.
Lemma near_self x : fin x = true -> 0 < b2r x -> near 0 x (b2r x).
Proof. intros F P. repeat split; try assumption; try lra. rewrite Rminus_eq_0, Rabs_R0. lra. Qed.
Lemma near_int n : (1 <= n <= 4294967296)%Z -> near 1 (float_of_int n) (IZR n).
Proof.
  intros H. destruct (int_rnd n ltac:(lia)) as [E F]. assert (1 <= IZR n) by (apply (IZR_le 1); lia). replace 1 with (0 + 1) at 1 by ring.
  apply (near_round 0 _ (IZR n)); try assumption; try lra.
  - apply Rle_trans with (bpow radix2 0); [apply bpow_le; lia | cbn; lra].
  - rewrite Rminus_eq_0, Rabs_R0. lra.
Qed.
Lemma ln_plus a b A B m : 0 < a -> 0 < b -> 0 < A -> 0 < B -> Rabs (ln a - ln A) <= m -> Rabs (ln b - ln B) <= m -> Rabs (ln (a + b) - ln (A + B)) <= m.
Proof.
  intros Ha Hb HA HB H1 H2. apply Rabs_le_inv in H1. apply Rabs_le_inv in H2.
  assert (forall x X, 0 < x -> 0 < X -> ln x - ln X <= m -> x <= X * exp m) as U.
  { intros x X Hx HX H. rewrite <- (exp_ln X HX), <- (exp_ln x Hx) at 1. rewrite <- exp_plus. destruct (Rle_lt_or_eq_dec (ln x) (ln X + m) ltac:(lra)) as [Q | Q]; [left; now apply exp_increasing | rewrite Q; lra]. }
  assert (forall x X, 0 < x -> 0 < X -> x <= X * exp m -> ln x - ln X <= m) as V.
  { intros x X Hx HX H. apply ln_le' in H; [| exact Hx]. rewrite ln_mult, ln_exp in H; [lra | exact HX | apply exp_pos]. }
  apply Rabs_le. split.
  - apply Ropp_le_cancel. rewrite Ropp_involutive, Ropp_minus_distr. apply V; try lra.
    pose proof (U A a HA Ha ltac:(lra)). pose proof (U B b HB Hb ltac:(lra)). lra.
  - apply V; try lra. pose proof (U a A Ha HA ltac:(lra)). pose proof (U b B Hb HB ltac:(lra)). lra.
Qed.
Lemma near_add k x y X Y : near k x X -> near k y Y -> k <= 3999999 -> usual (X + Y) -> near (k + 1) (b32_plus mode_NE x y) (X + Y).
Proof.
  intros NX NY K U. pose proof (near_double _ _ _ NX) as DX. pose proof (near_double _ _ _ NY) as DY.
  destruct NX as (FX & PX & QX & KX & HX). destruct NY as (FY & PY & QY & _ & HY).
  destruct (usual_range _ (b2r x + b2r y) U ltac:(lra)) as [R1 R2]. destruct (plus_ok x y FX FY R2) as [E F].
  apply (near_round k _ (b2r x + b2r y)); try assumption; try lra. now apply ln_plus.
Qed.
Lemma near_add_same k x y X : near k x X -> fin y = true -> b2r y = 0 -> usual X -> near k (b32_plus mode_NE x y) X.
Proof.
  intros NX FY Z U. pose proof (near_double _ _ _ NX) as DX. destruct NX as (FX & PX & QX & KX & HX).
  destruct (usual_range _ (b2r x) U DX) as [R1 R2]. destruct (plus_ok x y FX FY ltac:(now rewrite Z, Rplus_0_r)) as [E F].
  rewrite Z, Rplus_0_r, rnd_same in E. unfold near. rewrite E. repeat split; try assumption; lra.
Qed.
Lemma near_count k x X n : near k x X -> 1 <= k <= 3999999 -> usual X -> (0 <= n <= 4294967296)%Z -> usual (X + IZR n) ->
  near (k + 1) (b32_plus mode_NE x (float_of_int n)) (X + IZR n).
Proof.
  intros NX K U H U2. destruct (Z.eq_dec n 0) as [-> | Hn].
  - rewrite Rplus_0_r. apply near_weaken with k; [| lra]. destruct (int_rnd 0 ltac:(lia)) as [E F]. apply near_add_same; try assumption.
    rewrite E. unfold rnd. apply round_0. apply valid_rnd_N.
  - apply near_add; try assumption; try lra. apply near_weaken with 1; [apply near_int; lia | lra].
Qed.
Lemma near_mul k l x y X Y : near k x X -> near l y Y -> k + l <= 1000000 -> usual (X * Y) -> near (k + l + 1) (b32_mult mode_NE x y) (X * Y).
Proof.
  intros NX NY K U. destruct NX as (FX & PX & QX & KX & HX). destruct NY as (FY & PY & QY & KY & HY).
  assert (0 < b2r x * b2r y) as P by now apply Rmult_lt_0_compat. assert (0 < X * Y) as Q by now apply Rmult_lt_0_compat.
  assert (Rabs (ln (b2r x * b2r y) - ln (X * Y)) <= (k + l) * e23) as H.
  { rewrite !ln_mult by assumption. replace (ln (b2r x) + ln (b2r y) - (ln X + ln Y)) with ((ln (b2r x) - ln X) + (ln (b2r y) - ln Y)) by ring.
    eapply Rle_trans; [apply Rabs_triang |]. lra. }
  assert (X * Y / 2 <= b2r x * b2r y <= 2 * (X * Y)) as D by (apply (ln_double _ _ (k + l)); try assumption; lra).
  destruct (usual_range _ _ U D) as [R1 R2]. destruct (mult_ok x y FX FY R2) as [E F]. apply (near_round (k + l) _ (b2r x * b2r y)); try assumption; lra.
Qed.
Lemma near_div k l x y X Y : near k x X -> near l y Y -> k + l <= 1000000 -> usual (X / Y) -> near (k + l + 1) (b32_div mode_NE x y) (X / Y).
Proof.
  intros NX NY K U. destruct NX as (FX & PX & QX & KX & HX). destruct NY as (FY & PY & QY & KY & HY).
  assert (0 < b2r x / b2r y) as P by now apply Rdiv_lt_0_compat. assert (0 < X / Y) as Q by now apply Rdiv_lt_0_compat.
  assert (forall a b, 0 < a -> 0 < b -> ln (a / b) = ln a - ln b) as L by (intros a b Ha Hb; unfold Rdiv; rewrite ln_mult, ln_Rinv; try lra; now apply Rinv_0_lt_compat).
  assert (Rabs (ln (b2r x / b2r y) - ln (X / Y)) <= (k + l) * e23) as H.
  { rewrite !L by assumption. replace (ln (b2r x) - ln (b2r y) - (ln X - ln Y)) with ((ln (b2r x) - ln X) + - (ln (b2r y) - ln Y)) by ring.
    eapply Rle_trans; [apply Rabs_triang |]. rewrite Rabs_Ropp. lra. }
  assert (X / Y / 2 <= b2r x / b2r y <= 2 * (X / Y)) as D by (apply (ln_double _ _ (k + l)); try assumption; lra).
  destruct (usual_range _ _ U D) as [R1 R2]. destruct (div_ok x y FX ltac:(lra) R2) as [E F]. apply (near_round (k + l) _ (b2r x / b2r y)); try assumption; lra.
Qed.
Definition log_band : R := 12 / 1000000.
Lemma near_log log2 k x X : good_log2 log2 -> near k x X -> usual X ->
  fin (fast_log32 log2 x) = true /\ - (log_band + k * e23) <= ln X - b2r (fast_log32 log2 x) <= / 16384 + log_band + k * e23.
Proof.
  intros G N U. pose proof (near_double _ _ _ N) as D. destruct N as (F & P & Q & K & H). destruct (usual_range _ _ U D) as [R1 R2].
  assert (bpow radix2 (-126) <= b2r x) as L by (eapply Rle_trans; [| exact R1]; apply bpow_le; lia).
  destruct (log32 log2 x G F L) as [A B]. split; [exact A |]. apply Rabs_le_inv in H. unfold log_band. lra.
Qed.
