(** Stirling's formula with explicit bounds for the logarithm of Euler's integral. *)
From Coq Require Import List Reals Lra Lia Psatz ZArith.
From Coquelicot Require Import Coquelicot.
From Verif.spec Require Import DrawSpec LgammaSpec.
From Verif.proof Require Import DirichletLaw GammaFunction.
Local Open Scope R_scope.

(** ** Gamma(a + s) <= a^s Gamma(a) *)
Lemma exp_le_back x y : exp x <= exp y -> x <= y.
Proof. intros H. destruct (Rle_or_lt x y) as [C|C]; [exact C |]. apply exp_increasing in C. lra. Qed.
Lemma exp_convex s y : 0 <= s <= 1 -> exp (s * y) <= 1 - s + s * exp y.
Proof.
  intros Hs. pose proof (exp_pos (s * y)) as P.
  assert (exp y = exp (s * y) * exp ((1 - s) * y)) as E1 by (rewrite <- exp_plus; f_equal; ring).
  assert (1 = exp (s * y) * exp (- (s * y))) as E2 by (rewrite <- exp_plus, <- exp_0; f_equal; ring).
  pose proof (exp_ineq1_le ((1 - s) * y)) as A. pose proof (exp_ineq1_le (- (s * y))) as B.
  assert (exp (s * y) * (1 + (1 - s) * y) <= exp y) by (rewrite E1; apply Rmult_le_compat_l; lra).
  assert (exp (s * y) * (1 - s * y) <= 1) by (rewrite E2 at 2; apply Rmult_le_compat_l; lra).
  nra.
Qed.
Lemma w_between a s x : 0 < a -> 0 <= s <= 1 -> 0 < x ->
  gamma_weight (a + s) x <= Rpower a s * ((1 - s) * gamma_weight a x + s / a * gamma_weight (a + 1) x).
Proof.
  intros Ha Hs Hx. rewrite w_succ by exact Hx. unfold gamma_weight.
  replace (Rpower x (a + s - 1)) with (Rpower x (a - 1) * Rpower x s) by (rewrite <- Rpower_plus; f_equal; ring).
  assert (Rpower x s <= Rpower a s * (1 - s + s * (x / a))) as H.
  { unfold Rpower. replace (s * ln x) with (s * ln a + s * ln (x / a)) by (unfold Rdiv; rewrite ln_mult, ln_Rinv by (try apply Rinv_0_lt_compat; lra); ring).
    rewrite exp_plus. apply Rmult_le_compat_l; [left; apply exp_pos |].
    pose proof (exp_convex s (ln (x / a)) Hs) as C. rewrite exp_ln in C by (apply Rdiv_lt_0_compat; lra). exact C. }
  assert (0 < Rpower x (a - 1) * exp (- x)) as P by (apply Rmult_lt_0_compat; apply exp_pos).
  apply Rle_trans with (Rpower x (a - 1) * exp (- x) * (Rpower a s * (1 - s + s * (x / a)))).
  - replace (Rpower x (a - 1) * Rpower x s * exp (- x)) with (Rpower x (a - 1) * exp (- x) * Rpower x s) by ring.
    apply Rmult_le_compat_l; lra.
  - right. field. lra.
Qed.
Lemma G_between l h a s : 0 < l -> l <= h -> 0 < a -> 0 <= s <= 1 ->
  G l h (a + s) <= Rpower a s * ((1 - s) * G l h a + s / a * G l h (a + 1)).
Proof.
  intros Hl Hh Ha Hs. unfold G.
  rewrite <- (rint_scal (gamma_weight a)), <- (rint_scal (gamma_weight (a + 1))) by (now apply wx_ex).
  rewrite <- rint_plus by (apply ex_scal; now apply wx_ex).
  rewrite <- rint_scal by (apply (ex_RInt_plus (V := R_NormedModule)); apply ex_scal; now apply wx_ex).
  apply RInt_le; [exact Hh | now apply wx_ex | apply ex_scal; apply (ex_RInt_plus (V := R_NormedModule)); apply ex_scal; now apply wx_ex |].
  intros x Hx. apply w_between; lra.
Qed.

(** ** A function with derivative of one sign that vanishes at infinity *)
Lemma vanish_pos (f d : R -> R) C : (forall x, 0 < x -> is_derive f x (d x)) -> (forall x, 0 < x -> d x <= 0) ->
  (forall x, 1 <= x -> Rabs (f x) <= C / x) -> forall x, 0 < x -> 0 <= f x.
Proof.
  intros Hd Hs Hl x Hx. destruct (Rle_or_lt 0 (f x)) as [H|H]; [exact H | exfalso].
  assert (0 <= C) as HC. { pose proof (Hl 1 ltac:(lra)) as B. pose proof (Rabs_pos (f 1)). lra. }
  set (y := Rmax (x + 1) (1 + (C + 1) / - f x)).
  assert (x + 1 <= y /\ 1 + (C + 1) / - f x <= y) as [Y1 Y2] by (split; [apply Rmax_l | apply Rmax_r]).
  assert (0 < (C + 1) / - f x) as P by (apply Rdiv_lt_0_compat; lra).
  destruct (MVT_gen f x y d) as (c & Hc & E).
  - intros z Hz. rewrite Rmin_left, Rmax_right in Hz by lra. apply Hd. lra.
  - intros z Hz. rewrite Rmin_left, Rmax_right in Hz by lra. apply continuity_pt_filterlim.
    apply (ex_derive_continuous f). exists (d z). apply Hd. lra.
  - rewrite Rmin_left, Rmax_right in Hc by lra. pose proof (Hs c ltac:(lra)) as D.
    pose proof (Hl y ltac:(lra)) as B. pose proof (Rle_abs (- f y)) as A. rewrite Rabs_Ropp in A.
    assert (f y <= f x) by nra.
    assert (C / y < - f x). 
    { assert ((C + 1) / - f x * (- f x) = C + 1) as E1 by (field; lra).
      apply Rmult_lt_reg_r with y; [lra |]. replace (C / y * y) with C by (field; lra). nra. }
    lra.
Qed.
Lemma vanish_neg (f d : R -> R) C : (forall x, 0 < x -> is_derive f x (d x)) -> (forall x, 0 < x -> 0 <= d x) ->
  (forall x, 1 <= x -> Rabs (f x) <= C / x) -> forall x, 0 < x -> f x <= 0.
Proof.
  intros Hd Hs Hl x Hx. cut (0 <= - f x); [lra |].
  apply (vanish_pos (fun x => - f x) (fun x => - d x) C).
  - intros z Hz. apply (is_derive_opp f). now apply Hd.
  - intros z Hz. pose proof (Hs z Hz). lra.
  - intros z Hz. rewrite Rabs_Ropp. now apply Hl.
  - exact Hx.
Qed.

Definition T_hi (x : R) : R := / (12 * x) - / (360 * x ^ 3) + / (1260 * x ^ 5).
Definition T_lo (x : R) : R := T_hi x - / (1680 * x ^ 7).
Definition V_hi (x : R) : R := - / (8 * x) + / (192 * x ^ 3).
Definition V_lo (x : R) : R := V_hi x - / (640 * x ^ 5).

Lemma inv_range x k n : 1 <= x -> 1 <= k -> 0 < / (k * x ^ n) <= / k.
Proof.
  intros Hx Hk. assert (1 <= x ^ n) as H by (now apply pow_R1_Rle). split; [apply Rinv_0_lt_compat; nra |].
  apply Rinv_le_contravar; [lra | nra].
Qed.
Lemma T_small x : 1 <= x -> 0 <= T_lo x /\ T_hi x <= 1 / 4 /\ T_lo x <= T_hi x.
Proof.
  intros H. unfold T_lo, T_hi. pose proof (inv_range x 360 3 H ltac:(lra)). pose proof (inv_range x 1260 5 H ltac:(lra)).
  pose proof (inv_range x 1680 7 H ltac:(lra)). pose proof (inv_range x 12 1 H ltac:(lra)) as B. rewrite pow_1 in B.
  assert (/ (360 * x ^ 3) <= / (12 * x)) by (apply Rinv_le_contravar; [lra | nra]).
  assert (/ (1680 * x ^ 7) <= / (1260 * x ^ 5)).
  { apply Rinv_le_contravar; [apply Rmult_lt_0_compat; [lra | apply pow_lt; lra] |].
    assert (x ^ 5 <= x ^ 7) by (apply Rle_pow; [exact H | lia]). assert (0 < x ^ 5) by (apply pow_lt; lra). lra. }
  lra.
Qed.
Lemma V_small x : 1 <= x -> Rabs (V_lo x) <= / x /\ Rabs (V_hi x) <= / x.
Proof.
  intros H. unfold V_lo, V_hi.
  assert (forall k n, 1 <= k -> (1 <= n)%nat -> 0 < / (k * x ^ n) <= / k * / x) as B.
  { intros k n Hk Hn. split; [apply Rinv_0_lt_compat; apply Rmult_lt_0_compat; [lra | apply pow_lt; lra] |].
    rewrite <- Rinv_mult. apply Rinv_le_contravar; [nra |]. apply Rmult_le_compat_l; [lra |].
    replace x with (x ^ 1) at 1 by ring. apply Rle_pow; assumption. }
  pose proof (B 8 1%nat ltac:(lra) ltac:(lia)) as B1. rewrite pow_1 in B1. pose proof (B 192 3%nat ltac:(lra) ltac:(lia)) as B2.
  pose proof (B 640 5%nat ltac:(lra) ltac:(lia)) as B3. assert (0 < / x) by (apply Rinv_0_lt_compat; lra).
  split; apply Rabs_le; lra.
Qed.
Lemma ln_frac a s : 0 < a -> 0 <= s -> s / (a + s) <= ln (a + s) - ln a <= s / a.
Proof.
  intros Ha Hs. split.
  - pose proof (GammaFunction.ln_le (a / (a + s)) ltac:(apply Rdiv_lt_0_compat; lra)) as H.
    unfold Rdiv in H at 1. rewrite ln_mult, ln_Rinv in H by (try apply Rinv_0_lt_compat; lra).
    replace (s / (a + s)) with (1 - a / (a + s)) by (field; lra). lra.
  - pose proof (GammaFunction.ln_le ((a + s) / a) ltac:(apply Rdiv_lt_0_compat; lra)) as H.
    unfold Rdiv in H at 1. rewrite ln_mult, ln_Rinv in H by (try apply Rinv_0_lt_compat; lra).
    replace (s / a) with ((a + s) / a - 1) by (field; lra). lra.
Qed.
Definition phi_hi (x : R) : R := ln (x + 1) - ln x - (1 + (T_hi x - T_hi (x + 1))) / (x + / 2).
Definition phi_lo (x : R) : R := ln (x + 1) - ln x - (1 + (T_lo x - T_lo (x + 1))) / (x + / 2).
Definition psi_hi (x : R) : R := / 2 * (ln x + ln (x + 1)) - ln (x + / 2) - (V_hi x - V_hi (x + 1)).
Definition psi_lo (x : R) : R := / 2 * (ln x + ln (x + 1)) - ln (x + / 2) - (V_lo x - V_lo (x + 1)).

Lemma phi_hi_der x : 0 < x -> is_derive phi_hi x
  ((10 + 84 * x + 273 * x ^ 2 + 378 * x ^ 3 + 189 * x ^ 4) / (5040 * (x * (x + 1)) ^ 6 * (x + / 2) ^ 2)).
Proof.
  intros Hx. unfold phi_hi, T_hi. auto_derive.
  - repeat apply conj; try exact I; try lra; repeat apply Rmult_integral_contrapositive_currified; lra.
  - field. lra.
Qed.
Lemma phi_lo_der x : 0 < x -> is_derive phi_lo x
  (- ((21 + 216 * x + 952 * x ^ 2 + 2312 * x ^ 3 + 3256 * x ^ 4 + 2520 * x ^ 5 + 840 * x ^ 6) / (10080 * (x * (x + 1)) ^ 8 * (x + / 2) ^ 2))).
Proof.
  intros Hx. unfold phi_lo, T_lo, T_hi. auto_derive.
  - repeat apply conj; try exact I; try lra; repeat apply Rmult_integral_contrapositive_currified; lra.
  - field. lra.
Qed.
Lemma psi_hi_der x : 0 < x -> is_derive psi_hi x ((1 + 6 * x + 6 * x ^ 2) / (128 * (x * (x + 1)) ^ 4 * (x + / 2))).
Proof.
  intros Hx. unfold psi_hi, V_hi. auto_derive.
  - repeat apply conj; try exact I; try lra; repeat apply Rmult_integral_contrapositive_currified; lra.
  - field. lra.
Qed.
Lemma psi_lo_der x : 0 < x -> is_derive psi_lo x
  (- ((1 + 8 * x + 25 * x ^ 2 + 34 * x ^ 3 + 17 * x ^ 4) / (256 * (x * (x + 1)) ^ 6 * (x + / 2)))).
Proof.
  intros Hx. unfold psi_lo, V_lo, V_hi. auto_derive.
  - repeat apply conj; try exact I; try lra; repeat apply Rmult_integral_contrapositive_currified; lra.
  - field. lra.
Qed.
Lemma phi_small T x : 1 <= x -> (forall z, 1 <= z -> 0 <= T z <= 1 / 4) ->
  Rabs (ln (x + 1) - ln x - (1 + (T x - T (x + 1))) / (x + / 2)) <= 3 / x.
Proof.
  intros Hx HT. pose proof (ln_frac x 1 ltac:(lra) ltac:(lra)) as [F1 F2]. pose proof (HT x Hx). pose proof (HT (x + 1) ltac:(lra)).
  assert (0 < / (x + / 2) <= / x) as I by (split; [apply Rinv_0_lt_compat; lra | apply Rinv_le_contravar; lra]).
  assert (0 < 1 / (x + 1)) by (apply Rdiv_lt_0_compat; lra). unfold Rdiv in *. apply Rabs_le. split; nra.
Qed.
Lemma psi_small V x : 1 <= x -> (forall z, 1 <= z -> Rabs (V z) <= / z) ->
  Rabs (/ 2 * (ln x + ln (x + 1)) - ln (x + / 2) - (V x - V (x + 1))) <= 3 / x.
Proof.
  intros Hx HV. pose proof (ln_frac x (/ 2) ltac:(lra) ltac:(lra)) as [F1 F2]. pose proof (ln_frac (x + / 2) (/ 2) ltac:(lra) ltac:(lra)) as [F3 F4].
  replace (x + / 2 + / 2) with (x + 1) in * by field.
  pose proof (proj1 (Rabs_le_between _ _) (HV x Hx)). pose proof (proj1 (Rabs_le_between _ _) (HV (x + 1) ltac:(lra))).
  assert (/ (x + 1) <= / x) by (apply Rinv_le_contravar; lra). assert (/ (x + / 2) <= / x) by (apply Rinv_le_contravar; lra).
  assert (0 < / (x + 1)) by (apply Rinv_0_lt_compat; lra). assert (0 < / (x + / 2)) by (apply Rinv_0_lt_compat; lra).
  unfold Rdiv in *. apply Rabs_le. split; lra.
Qed.
Lemma phi_hi_neg x : 0 < x -> phi_hi x <= 0.
Proof.
  apply (vanish_neg phi_hi _ 3 phi_hi_der).
  - intros z Hz. apply Rmult_le_pos; [| left; apply Rinv_0_lt_compat; repeat apply Rmult_lt_0_compat; try apply pow_lt; try nra].
    assert (0 < z ^ 2 /\ 0 < z ^ 3 /\ 0 < z ^ 4) by (repeat split; now apply pow_lt). lra.
  - intros z Hz. apply phi_small; [exact Hz |]. intros y Hy. pose proof (T_small y Hy). lra.
Qed.
Lemma phi_lo_pos x : 0 < x -> 0 <= phi_lo x.
Proof.
  apply (vanish_pos phi_lo _ 3 phi_lo_der).
  - intros z Hz. apply Ropp_le_cancel. rewrite Ropp_0, Ropp_involutive.
    apply Rmult_le_pos; [| left; apply Rinv_0_lt_compat; repeat apply Rmult_lt_0_compat; try apply pow_lt; try nra].
    assert (0 < z ^ 2 /\ 0 < z ^ 3 /\ 0 < z ^ 4 /\ 0 < z ^ 5 /\ 0 < z ^ 6) by (repeat split; now apply pow_lt). lra.
  - intros z Hz. apply phi_small; [exact Hz |]. intros y Hy. pose proof (T_small y Hy). lra.
Qed.
Lemma psi_hi_neg x : 0 < x -> psi_hi x <= 0.
Proof.
  apply (vanish_neg psi_hi _ 3 psi_hi_der).
  - intros z Hz. apply Rmult_le_pos; [| left; apply Rinv_0_lt_compat; repeat apply Rmult_lt_0_compat; try apply pow_lt; try nra].
    assert (0 < z ^ 2) by (now apply pow_lt). lra.
  - intros z Hz. apply psi_small; [exact Hz |]. intros y Hy. now apply V_small.
Qed.
Lemma psi_lo_pos x : 0 < x -> 0 <= psi_lo x.
Proof.
  apply (vanish_pos psi_lo _ 3 psi_lo_der).
  - intros z Hz. apply Ropp_le_cancel. rewrite Ropp_0, Ropp_involutive.
    apply Rmult_le_pos; [| left; apply Rinv_0_lt_compat; repeat apply Rmult_lt_0_compat; try apply pow_lt; try nra].
    assert (0 < z ^ 2 /\ 0 < z ^ 3 /\ 0 < z ^ 4) by (repeat split; now apply pow_lt). lra.
  - intros z Hz. apply psi_small; [exact Hz |]. intros y Hy. now apply V_small.
Qed.
Lemma T_inv x : 1 <= x -> T_hi x <= / x.
Proof.
  intros H. unfold T_hi. pose proof (inv_range x 360 3 H ltac:(lra)).
  assert (/ (12 * x) <= / 2 * / x /\ / (1260 * x ^ 5) <= / 2 * / x) as [A B].
  { rewrite <- !Rinv_mult. assert (x <= x ^ 5) by (replace x with (x ^ 1) at 1 by ring; apply Rle_pow; [exact H | lia]).
    split; apply Rinv_le_contravar; lra. }
  lra.
Qed.
(** a sequence bounded below by something that vanishes *)
Lemma vanish_le a b C : 0 <= C -> (forall n, a <= b + C / INR (S n)) -> a <= b.
Proof.
  intros HC H. destruct (Rle_or_lt a b) as [L|L]; [exact L | exfalso].
  destruct (archimed_cor1 ((a - b) / (C + 1))) as (n & Hn & Pn); [apply Rdiv_lt_0_compat; lra |].
  destruct n as [|n]; [lia |]. specialize (H n).
  assert (C / INR (S n) <= C * ((a - b) / (C + 1))) by (apply Rmult_le_compat_l; lra).
  assert (C * ((a - b) / (C + 1)) < a - b); [| lra].
  replace (C * ((a - b) / (C + 1))) with ((a - b) * (C / (C + 1))) by (field; lra).
  assert (C / (C + 1) < 1) by (apply Rmult_lt_reg_r with (C + 1); [lra |]; unfold Rdiv; rewrite Rmult_assoc, Rinv_l; lra). nra.
Qed.

Section Stirling.
  Variable lg : R -> R.
  Hypothesis HG : is_log_gamma lg.
  #[local] Hint Resolve HG : core.
  Lemma lg_rec x : 0 < x -> lg (x + 1) = ln x + lg x.
  Proof using HG. apply (log_gamma_like lg HG). Qed.
  Lemma lg_1 : lg 1 = 0.
  Proof using HG. apply (log_gamma_like lg HG). Qed.

  Lemma lg_up a s : 0 < a -> 0 <= s <= 1 -> lg (a + s) <= s * ln a + lg a.
  Proof using HG.
    intros Ha Hs. apply exp_le_back. rewrite exp_plus. change (exp (s * ln a)) with (Rpower a s).
    assert (exp (lg (a + 1)) = a * exp (lg a)) as E by (rewrite lg_rec, exp_plus, exp_ln by lra; ring).
    replace (Rpower a s * exp (lg a)) with (Rpower a s * ((1 - s) * exp (lg a) + s / a * exp (lg (a + 1)))) by (rewrite E; field; lra).
    set (R1 := Rpower a s * ((1 - s) * exp (lg a) + s / a * exp (lg (a + 1)))).
    change (Rbar_le (Finite (exp (lg (a + s)))) (Finite R1)).
    refine (is_lim_seq_le (fun n => Gn n (a + s)) (fun n => Rpower a s * ((1 - s) * Gn n a + s / a * Gn n (a + 1))) (exp (lg (a + s))) R1 _ (HG (a + s) _) _).
    - intros n. apply G_between; [apply lo_pos | apply lo_hi | exact Ha | exact Hs].
    - lra.
    - apply (is_lim_seq_scal_l _ (Rpower a s) ((1 - s) * exp (lg a) + s / a * exp (lg (a + 1)))).
      apply is_lim_seq_plus'; [exact (is_lim_seq_scal_l _ (1 - s) (exp (lg a)) (HG a Ha)) |].
      exact (is_lim_seq_scal_l _ (s / a) (exp (lg (a + 1))) (HG (a + 1) ltac:(lra))).
  Qed.
  Lemma lg_low a s : 0 < a -> 0 <= s <= 1 -> ln a + lg a - (1 - s) * ln (a + s) <= lg (a + s).
  Proof using HG.
    intros Ha Hs. pose proof (lg_up (a + s) (1 - s) ltac:(lra) ltac:(lra)) as H.
    replace (a + s + (1 - s)) with (a + 1) in H by ring. rewrite lg_rec in H by exact Ha. lra.
  Qed.

  (** ** What remains after the leading terms *)
  Definition g (x : R) : R := lg x - ((x - / 2) * ln x - x).
  Lemma g_step x : 0 < x -> g x - g (x + 1) = (x + / 2) * (ln (x + 1) - ln x) - 1.
  Proof using HG. intros H. unfold g. rewrite lg_rec by exact H. lra. Qed.
  Lemma g_near a s : / 2 <= a -> 0 <= s <= 1 -> Rabs (g (a + s) - g a) <= / a.
  Proof using HG.
    intros Ha Hs. pose proof (lg_up a s ltac:(lra) Hs) as U. pose proof (lg_low a s ltac:(lra) Hs) as V.
    pose proof (ln_frac a s ltac:(lra) ltac:(lra)) as [F1 F2]. unfold g.
    set (d := ln (a + s) - ln a) in *.
    assert (g (a + s) - g a = lg (a + s) - lg a - s * ln a - (a + s - / 2) * d + s) as E by (unfold g, d; ring).
    fold (g (a + s)). fold (g a). rewrite E.
    assert (0 < / a) as P by (apply Rinv_0_lt_compat; lra).
    assert (s / (a + s) * (a + s) = s) as Q1 by (field; lra).
    assert (s / a * a = s) as Q2 by (field; lra).
    assert (s / a <= / a) as Q3 by (unfold Rdiv; nra).
    assert (s / (a + s) <= s / a) as Q4 by lra.
    assert (0 <= s / (a + s)) as Q5 by (apply Rmult_le_pos; [lra | left; apply Rinv_0_lt_compat; lra]).
    apply Rabs_le. split.
    - assert (lg (a + s) - lg a - s * ln a >= - (1 - s) * d) by (unfold d; nra).
      assert ((a + / 2) * d <= (a + / 2) * (s / a)) by (apply Rmult_le_compat_l; lra). nra.
    - assert ((a + s - / 2) * (s / (a + s)) <= (a + s - / 2) * d) by (apply Rmult_le_compat_l; lra). nra.
  Qed.
  Lemma g_step_lo x : 0 < x -> g (x + 1) - T_lo (x + 1) <= g x - T_lo x.
  Proof using HG.
    intros Hx. pose proof (g_step x Hx) as E. pose proof (phi_lo_pos x Hx) as P. unfold phi_lo in P.
    set (d := ln (x + 1) - ln x) in *. set (t := T_lo x - T_lo (x + 1)) in *.
    assert ((1 + t) / (x + / 2) * (x + / 2) = 1 + t) as Q by (field; lra). unfold t in *. nra.
  Qed.
  Lemma g_step_hi x : 0 < x -> g x - T_hi x <= g (x + 1) - T_hi (x + 1).
  Proof using HG.
    intros Hx. pose proof (g_step x Hx) as E. pose proof (phi_hi_neg x Hx) as P. unfold phi_hi in P.
    set (d := ln (x + 1) - ln x) in *. set (t := T_hi x - T_hi (x + 1)) in *.
    assert ((1 + t) / (x + / 2) * (x + / 2) = 1 + t) as Q by (field; lra). unfold t in *. nra.
  Qed.
  Lemma g_far_lo x n : 0 < x -> g (x + INR n) - T_lo (x + INR n) <= g x - T_lo x.
  Proof using HG.
    intros Hx. induction n as [|n IH]; [cbn; rewrite Rplus_0_r; lra |]. pose proof (pos_INR n).
    pose proof (g_step_lo (x + INR n) ltac:(lra)) as H1. rewrite S_INR, <- Rplus_assoc. lra.
  Qed.
  Lemma g_far_hi x n : 0 < x -> g x - T_hi x <= g (x + INR n) - T_hi (x + INR n).
  Proof using HG.
    intros Hx. induction n as [|n IH]; [cbn; rewrite Rplus_0_r; lra |]. pose proof (pos_INR n).
    pose proof (g_step_hi (x + INR n) ltac:(lra)) as H1. rewrite S_INR, <- Rplus_assoc. lra.
  Qed.
  Lemma align x y N : exists n m, (N <= n)%nat /\ (N <= m)%nat /\ y + INR m <= x + INR n <= y + INR m + 1.
  Proof.
    destruct (archimed (x - y)) as [A1 A2]. set (f := (up (x - y) - 1)%Z).
    assert (IZR f <= x - y <= IZR f + 1) as F by (unfold f; rewrite minus_IZR; lra).
    destruct (Z_lt_le_dec f 0) as [C|C].
    - exists (N + Z.to_nat (- f))%nat, N. repeat split; try lia; rewrite plus_INR, (INR_IZR_INZ (Z.to_nat (- f))), Z2Nat.id, opp_IZR by lia; lra.
    - exists N, (N + Z.to_nat f)%nat. repeat split; try lia; rewrite plus_INR, (INR_IZR_INZ (Z.to_nat f)), Z2Nat.id by lia; lra.
  Qed.
  (** Stirling: the remainder lies between the two truncated series, up to one constant. *)
  Theorem stirling x y : 0 < x -> 0 < y -> g y - T_hi y <= g x - T_lo x.
  Proof using HG.
    intros Hx Hy. apply (vanish_le _ _ 2); [lra |]. intros k.
    destruct (align x y (S k)) as (n & m & Hn & Hm & Hxy).
    pose proof (g_far_lo x n Hx) as A. pose proof (g_far_hi y m Hy) as B.
    apply le_INR in Hn. apply le_INR in Hm. assert (1 <= INR (S k)) as K by (rewrite S_INR; pose proof (pos_INR k); lra).
    pose proof (g_near (y + INR m) (x + INR n - (y + INR m)) ltac:(lra) ltac:(lra)) as D.
    replace (y + INR m + (x + INR n - (y + INR m))) with (x + INR n) in D by ring. apply Rabs_le_between in D.
    pose proof (T_small (x + INR n) ltac:(lra)). pose proof (T_inv (x + INR n) ltac:(lra)). pose proof (T_small (y + INR m) ltac:(lra)).
    assert (/ (y + INR m) <= / INR (S k)) by (apply Rinv_le_contravar; lra).
    assert (/ (x + INR n) <= / INR (S k)) by (apply Rinv_le_contravar; lra).
    unfold Rdiv. lra.
  Qed.

  (** ** lg (x + 1/2) - lg x *)
  Definition e (x : R) : R := lg (x + / 2) - lg x - / 2 * ln x.
  Lemma e_step x : 0 < x -> e x - e (x + 1) = / 2 * (ln x + ln (x + 1)) - ln (x + / 2).
  Proof using HG. intros Hx. unfold e. replace (x + 1 + / 2) with (x + / 2 + 1) by ring. rewrite !lg_rec by lra. lra. Qed.
  Lemma e_range x : 0 < x -> - / x <= e x <= 0.
  Proof using HG.
    intros Hx. unfold e. pose proof (lg_up x (/ 2) Hx ltac:(lra)). pose proof (lg_low x (/ 2) Hx ltac:(lra)).
    pose proof (ln_frac x (/ 2) Hx ltac:(lra)) as [_ F]. assert (0 < / x) by (apply Rinv_0_lt_compat; lra). unfold Rdiv in F. lra.
  Qed.
  Lemma e_far_hi x n : 0 < x -> e x - V_hi x <= e (x + INR n) - V_hi (x + INR n).
  Proof using HG.
    intros Hx. induction n as [|n IH]; [cbn; rewrite Rplus_0_r; lra |]. pose proof (pos_INR n).
    pose proof (e_step (x + INR n) ltac:(lra)) as H1. pose proof (psi_hi_neg (x + INR n) ltac:(lra)) as P. unfold psi_hi in P.
    rewrite S_INR, <- Rplus_assoc. lra.
  Qed.
  Lemma e_far_lo x n : 0 < x -> e (x + INR n) - V_lo (x + INR n) <= e x - V_lo x.
  Proof using HG.
    intros Hx. induction n as [|n IH]; [cbn; rewrite Rplus_0_r; lra |]. pose proof (pos_INR n).
    pose proof (e_step (x + INR n) ltac:(lra)) as H1. pose proof (psi_lo_pos (x + INR n) ltac:(lra)) as P. unfold psi_lo in P.
    rewrite S_INR, <- Rplus_assoc. lra.
  Qed.
  Theorem half_step x : 0 < x -> V_lo x <= e x <= V_hi x.
  Proof using HG.
    intros Hx. split.
    - apply (vanish_le _ _ 2); [lra |]. intros k. pose proof (e_far_lo x (S k) Hx) as A.
      assert (1 <= INR (S k)) as K by (rewrite S_INR; pose proof (pos_INR k); lra).
      pose proof (e_range (x + INR (S k)) ltac:(lra)). destruct (V_small (x + INR (S k)) ltac:(lra)) as [D _]. apply Rabs_le_between in D.
      assert (/ (x + INR (S k)) <= / INR (S k)) by (apply Rinv_le_contravar; lra). unfold Rdiv. lra.
    - apply (vanish_le _ _ 2); [lra |]. intros k. pose proof (e_far_hi x (S k) Hx) as A.
      assert (1 <= INR (S k)) as K by (rewrite S_INR; pose proof (pos_INR k); lra).
      pose proof (e_range (x + INR (S k)) ltac:(lra)). destruct (V_small (x + INR (S k)) ltac:(lra)) as [_ D]. apply Rabs_le_between in D.
      assert (/ (x + INR (S k)) <= / INR (S k)) by (apply Rinv_le_contravar; lra). assert (0 < / INR (S k)) by (apply Rinv_0_lt_compat; lra).
      unfold Rdiv. lra.
  Qed.
End Stirling.
