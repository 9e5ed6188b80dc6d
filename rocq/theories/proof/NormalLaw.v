(** Averages over a normal draw. *)
From Coq Require Import List Reals Lra Lia Psatz.
From Coquelicot Require Import Coquelicot.
From Verif.spec Require Import DrawSpec.
From Verif.proof Require Import DirichletLaw GammaFunction.
Import ListNotations.
Local Open Scope R_scope.

Lemma incr_lim (f : R -> R) M : (forall x y, x <= y -> f x <= f y) -> (forall x, f x <= M) ->
  exists L : R, is_lim f p_infty L /\ forall x, f x <= L.
Proof.
  intros HI HM. destruct (ex_finite_lim_seq_incr (fun n => f (INR n)) M) as [L HL].
  { intros n. apply HI. rewrite S_INR. lra. } { intros n. apply HM. }
  assert (forall x, f x <= L) as UB.
  { intros x. destruct (nfloor_ex (Rmax 0 x)) as [n [_ Hn]]; [apply Rmax_l |].
    apply Rle_trans with (f (INR (S n))).
    - apply HI. rewrite S_INR. pose proof (Rmax_r 0 x). lra.
    - apply (is_lim_seq_incr_compare (fun n => f (INR n)) L HL). intros k. apply HI. rewrite S_INR. lra. }
  exists L. split; [| exact UB]. apply is_lim_spec. intros eps. apply is_lim_seq_spec in HL. destruct (HL eps) as [N HN].
  exists (INR N). intros x Hx. specialize (HN N (Nat.le_refl N)). cbn in HN. apply Rabs_def2 in HN.
  pose proof (HI (INR N) x ltac:(lra)). specialize (UB x). apply Rabs_def1; lra.
Qed.

Definition phi (t : R) : R := exp (- t² / 2).
Lemma phi_cont x : continuous phi x.
Proof. apply (ex_derive_continuous phi). unfold phi, Rsqr. auto_derive. exact I. Qed.
Lemma phi_ex a b : ex_RInt phi a b.
Proof. apply (ex_RInt_continuous (V := R_CompleteNormedModule)). intros x _. apply phi_cont. Qed.
Lemma phi_le t : phi t <= 2 * / (1 + t²).
Proof.
  unfold phi. replace (- t² / 2) with (- (t² / 2)) by field. rewrite exp_Ropp.
  pose proof (Rle_0_sqr t) as P.
  assert (1 + t² / 2 <= exp (t² / 2)) as H by (destruct (Req_dec (t² / 2) 0) as [-> | N]; [rewrite exp_0; lra | left; now apply exp_ineq1]).
  apply Rle_trans with (/ (1 + t² / 2)); [apply Rinv_le_contravar; lra |].
  replace (2 * / (1 + t²)) with (/ ((1 + t²) / 2)) by (field; lra). apply Rinv_le_contravar; lra.
Qed.
Lemma atan_int a b : is_RInt (fun t => 2 * / (1 + t²)) a b (2 * atan b - 2 * atan a).
Proof.
  apply (is_RInt_derive (V := R_CompleteNormedModule) (fun t => 2 * atan t)).
  - intros x _. auto_derive; [exact I |]. unfold Rsqr. field. nra.
  - intros x _. apply (ex_derive_continuous (fun t => 2 * / (1 + t²))). unfold Rsqr. auto_derive. nra.
Qed.
Lemma phi_bound a b : a <= b -> 0 <= RInt phi a b <= 2 * PI.
Proof.
  intros H. split.
  - apply RInt_ge_0; [exact H | apply phi_ex |]. intros x _. left. apply exp_pos.
  - pose proof (atan_int a b) as I1. apply Rle_trans with (RInt (fun t => 2 * / (1 + t²)) a b).
    + apply RInt_le; [exact H | apply phi_ex | eexists; exact I1 |]. intros x _. apply phi_le.
    + rewrite (rint_uniq _ _ _ _ I1). pose proof (atan_bound a). pose proof (atan_bound b). lra.
Qed.
Lemma phi_mono a a' b b' : a' <= a -> a <= b -> b <= b' -> RInt phi a b <= RInt phi a' b'.
Proof.
  intros H1 H2 H3. pose proof (chasles phi a' a b' (phi_ex _ _) (phi_ex _ _)). pose proof (chasles phi a b b' (phi_ex _ _) (phi_ex _ _)).
  pose proof (phi_bound a' a H1). pose proof (phi_bound b b' H3). lra.
Qed.
(** the total mass of the unnormalised weight *)
Lemma phi_total : exists K, 0 < K /\ forall u v : nat -> R, is_lim_seq u p_infty -> is_lim_seq v p_infty ->
  is_lim_seq (fun n => RInt phi (- u n) (v n)) K.
Proof.
  assert (forall x y, x <= y -> RInt phi 0 x <= RInt phi 0 y) as M1.
  { intros x y H. pose proof (chasles phi 0 x y (phi_ex _ _) (phi_ex _ _)). pose proof (phi_bound x y H). lra. }
  assert (forall x y, x <= y -> RInt phi (- x) 0 <= RInt phi (- y) 0) as M2.
  { intros x y H. pose proof (chasles phi (- y) (- x) 0 (phi_ex _ _) (phi_ex _ _)). pose proof (phi_bound (- y) (- x) ltac:(lra)). lra. }
  assert (forall x, RInt phi 0 x <= 2 * PI) as B1'.
  { intros x. apply Rle_trans with (RInt phi 0 (Rmax 0 x)); [apply M1, Rmax_r | apply phi_bound, Rmax_l]. }
  assert (forall x, RInt phi (- x) 0 <= 2 * PI) as B2'.
  { intros x. apply Rle_trans with (RInt phi (- Rmax 0 x) 0); [apply M2, Rmax_r |]. apply phi_bound. pose proof (Rmax_l 0 x). lra. }
  destruct (incr_lim (fun x => RInt phi 0 x) _ M1 B1') as (L1 & HL1 & U1).
  destruct (incr_lim (fun x => RInt phi (- x) 0) _ M2 B2') as (L2 & HL2 & U2).
  exists (L2 + L1). split.
  - assert (0 < RInt phi 0 1) by (apply RInt_gt_0; [lra | intros; apply exp_pos | intros; apply phi_cont]).
    pose proof (U1 1). pose proof (U2 0) as Q. cbn beta in Q. pose proof (phi_bound (- 0) 0 ltac:(lra)). lra.
  - intros u v Hu Hv. apply (is_lim_seq_ext (fun n => RInt phi (- u n) 0 + RInt phi 0 (v n))).
    + intros n. apply chasles; apply phi_ex.
    + apply is_lim_seq_plus'.
      * apply (is_lim_comp_seq (fun x => RInt phi (- x) 0) u p_infty L2 HL2); [exists 0%nat; intros; discriminate | exact Hu].
      * apply (is_lim_comp_seq (fun x => RInt phi 0 x) v p_infty L1 HL1); [exists 0%nat; intros; discriminate | exact Hv].
Qed.

Lemma nw_cont mu sd x : sd <> 0 -> continuous (normal_weight mu sd) x.
Proof. intros H. apply (ex_derive_continuous (normal_weight mu sd)). unfold normal_weight, Rsqr. auto_derive. exact I. Qed.
Lemma nw_ex mu sd a b : sd <> 0 -> ex_RInt (normal_weight mu sd) a b.
Proof. intros H. apply (ex_RInt_continuous (V := R_CompleteNormedModule)). intros x _. now apply nw_cont. Qed.
Lemma nw_pos mu sd x : 0 < normal_weight mu sd x.
Proof. apply exp_pos. Qed.
Lemma nw_std mu sd a b : 0 < sd -> RInt (normal_weight mu sd) a b = sd * RInt phi (/ sd * a + - mu / sd) (/ sd * b + - mu / sd).
Proof.
  intros H. assert (RInt (fun y => / sd * phi (/ sd * y + - mu / sd)) a b = / sd * RInt (normal_weight mu sd) a b) as E2.
  { rewrite <- rint_scal by (apply nw_ex; lra). apply RInt_ext. intros x _. unfold normal_weight, phi. do 2 f_equal.
    replace ((x - mu) / sd) with (/ sd * x + - mu / sd) by (field; lra). reflexivity. }
  assert (RInt (fun y => / sd * phi (/ sd * y + - mu / sd)) a b = RInt phi (/ sd * a + - mu / sd) (/ sd * b + - mu / sd)) as E
    by exact (RInt_comp_lin (V := R_CompleteNormedModule) phi (/ sd) (- mu / sd) a b (phi_ex _ _)).
  assert (forall I J : R, J = / sd * I -> I = sd * J) as Q by (intros I J ->; field; lra).
  apply Q. now rewrite <- E, E2.
Qed.
Lemma lin_inf c d : 0 < c -> is_lim_seq (fun n => c * INR n + d) p_infty.
Proof.
  intros Hc. eapply is_lim_seq_plus; [| apply is_lim_seq_const |].
  - eapply is_lim_seq_mult; [apply is_lim_seq_const | apply is_lim_seq_INR |].
    unfold is_Rbar_mult, Rbar_mult'. destruct (Rle_dec 0 c) as [H | H]; [destruct (Rle_lt_or_eq_dec 0 c H); [reflexivity | lra] | lra].
  - reflexivity.
Qed.
Lemma nw_ratio mu sd mu' sd' : 0 < sd -> 0 < sd' ->
  is_lim_seq (fun n => RInt (normal_weight mu' sd') (- INR n) (INR n) / RInt (normal_weight mu sd) (- INR n) (INR n)) (sd' / sd).
Proof.
  intros H H'. destruct phi_total as (K & PK & HK).
  assert (forall m s, 0 < s -> is_lim_seq (fun n => RInt (normal_weight m s) (- INR n) (INR n)) (s * K)) as L.
  { intros m s Hs. apply (is_lim_seq_ext (fun n => s * RInt phi (- (/ s * INR n + m / s)) (/ s * INR n + - m / s))).
    - intros n. rewrite nw_std by exact Hs. do 2 f_equal. field. lra.
    - assert (0 < / s) by (now apply Rinv_0_lt_compat).
      apply (is_lim_seq_scal_l _ s K). apply HK; now apply lin_inf. }
  replace (sd' / sd) with ((sd' * K) / (sd * K)) by (field; lra).
  apply is_lim_seq_div'; [now apply L | now apply L |]. apply Rmult_integral_contrapositive_currified; lra.
Qed.
Lemma normal_mean_one mu sd : 0 < sd -> normal_mean mu sd (fun _ => 1) 1.
Proof.
  intros H. unfold normal_mean. apply (is_lim_seq_ext (fun n => RInt (normal_weight mu sd) (- INR n) (INR n) / RInt (normal_weight mu sd) (- INR n) (INR n))).
  - intros n. f_equal. apply RInt_ext. intros x _. symmetry. apply Rmult_1_r.
  - replace 1 with (sd / sd) by (field; lra). now apply nw_ratio.
Qed.

(** Conjugacy: a normal centre with precision kappa, seen through one value. *)
Lemma normal_conj mu kappa s v m : 0 < kappa -> 0 < s ->
  let mu' := (kappa * mu + v) / (kappa + 1) in
  normal_weight mu (s / sqrt kappa) m * normal_weight m s v =
  normal_weight mu (s * sqrt (1 + / kappa)) v * normal_weight mu' (s / sqrt (kappa + 1)) m.
Proof.
  intros Hk Hs mu'. unfold normal_weight. rewrite <- !exp_plus. f_equal.
  assert (0 < / kappa) as Pk by (now apply Rinv_0_lt_compat).
  assert (sqrt kappa * sqrt kappa = kappa) as E1 by (apply sqrt_sqrt; lra).
  assert (sqrt (kappa + 1) * sqrt (kappa + 1) = kappa + 1) as E2 by (apply sqrt_sqrt; lra).
  assert (sqrt (1 + / kappa) * sqrt (1 + / kappa) = 1 + / kappa) as E3 by (apply sqrt_sqrt; lra).
  assert (0 < sqrt kappa) as P1 by (apply sqrt_lt_R0; lra). assert (0 < sqrt (kappa + 1)) as P2 by (apply sqrt_lt_R0; lra).
  assert (0 < sqrt (1 + / kappa)) as P3 by (apply sqrt_lt_R0; lra).
  assert (((m - mu) / (s / sqrt kappa))² = kappa * (m - mu)² / s²) as Q1.
  { unfold Rsqr. transitivity ((sqrt kappa * sqrt kappa) * ((m - mu) * (m - mu)) / (s * s)); [field; lra | now rewrite E1]. }
  assert (((m - mu') / (s / sqrt (kappa + 1)))² = (kappa + 1) * (m - mu')² / s²) as Q2.
  { unfold Rsqr. transitivity ((sqrt (kappa + 1) * sqrt (kappa + 1)) * ((m - mu') * (m - mu')) / (s * s)); [field; lra | now rewrite E2]. }
  assert (((v - mu) / (s * sqrt (1 + / kappa)))² = (v - mu)² / (s² * (1 + / kappa))) as Q3.
  { unfold Rsqr. transitivity ((v - mu) * (v - mu) / (s * s * (sqrt (1 + / kappa) * sqrt (1 + / kappa)))); [field; lra | now rewrite E3]. }
  rewrite Q1, Q2, Q3. unfold mu', Rsqr. field. repeat split; try lra.
Qed.
(** joint density of values around an unknown centre, value by value *)
Fixpoint normal_joint (mu kappa s : R) (vs : list R) : R :=
  match vs with
  | [] => 1
  | v :: t => normal_density mu (s * sqrt (1 + / kappa)) v * normal_joint ((kappa * mu + v) / (kappa + 1)) (kappa + 1) s t
  end.
Lemma normal_joint_mean s vs : 0 < s -> forall mu kappa, 0 < kappa ->
  normal_mean mu (s / sqrt kappa) (fun m => product (map (normal_density m s) vs)) (normal_joint mu kappa s vs).
Proof.
  intros Hs. induction vs as [|v vs IH]; intros mu kappa Hk.
  - cbn [normal_joint map]. apply normal_mean_one. apply Rdiv_lt_0_compat; [exact Hs | apply sqrt_lt_R0; lra].
  - cbn [normal_joint map]. set (mu' := (kappa * mu + v) / (kappa + 1)).
    specialize (IH mu' (kappa + 1) ltac:(lra)). unfold normal_mean in *.
    set (s0 := s / sqrt kappa) in *. set (s1 := s / sqrt (kappa + 1)) in *. set (F := fun m => product (map (normal_density m s) vs)) in *.
    assert (0 < sqrt kappa) as P1 by (apply sqrt_lt_R0; lra). assert (0 < sqrt (kappa + 1)) as P2 by (apply sqrt_lt_R0; lra).
    assert (0 < / kappa) as Pk by (now apply Rinv_0_lt_compat). assert (0 < sqrt (1 + / kappa)) as P3 by (apply sqrt_lt_R0; lra).
    assert (0 < s0) as Q0 by (unfold s0; now apply Rdiv_lt_0_compat). assert (0 < s1) as Q1 by (unfold s1; now apply Rdiv_lt_0_compat).
    assert (0 < sqrt (2 * PI)) as P4 by (apply sqrt_lt_R0; pose proof PI_RGT_0; lra).
    set (C := normal_weight mu (s * sqrt (1 + / kappa)) v / (s * sqrt (2 * PI))).
    assert (forall n, 1 <= INR n -> 0 < RInt (normal_weight mu' s1) (- INR n) (INR n)) as PW.
    { intros n Hn. apply RInt_gt_0; [lra | intros; apply nw_pos | intros; apply nw_cont; lra]. }
    assert (forall x, continuous F x) as FC.
    { intros x. unfold F. clear IH C PW F. induction vs as [|w ws IHw]; unfold product in *; cbn [map fold_right]; [apply continuous_const |].
      apply (continuous_mult (fun m => normal_density m s w) (fun m => fold_right Rmult 1 (map (normal_density m s) ws))); [| exact IHw].
      apply (ex_derive_continuous (fun m => normal_density m s w)). unfold normal_density, normal_weight, Rsqr. auto_derive.
      split; [exact I | exact I] || exact I || (repeat split; auto; nra). }
    assert (forall a b, ex_RInt (fun m => normal_weight mu' s1 m * F m) a b) as FE.
    { intros a b. apply (ex_RInt_continuous (V := R_CompleteNormedModule)). intros x _.
      apply (continuous_mult (normal_weight mu' s1) F); [apply nw_cont; lra | apply FC]. }
    apply (is_lim_seq_ext_loc (fun n => C * ((RInt (fun m => normal_weight mu' s1 m * F m) (- INR n) (INR n) / RInt (normal_weight mu' s1) (- INR n) (INR n)) *
       (RInt (normal_weight mu' s1) (- INR n) (INR n) / RInt (normal_weight mu s0) (- INR n) (INR n))))).
    + exists 1%nat. intros n Hn. assert (1 <= INR n) as Hn1 by (apply (le_INR 1); exact Hn). pose proof (PW n Hn1) as PWn.
      assert (0 < RInt (normal_weight mu s0) (- INR n) (INR n)) as PW0 by (apply RInt_gt_0; [lra | intros; apply nw_pos | intros; apply nw_cont; lra]).
      assert (RInt (fun x => normal_weight mu s0 x * product (normal_density x s v :: map (normal_density x s) vs)) (- INR n) (INR n) =
              C * RInt (fun m => normal_weight mu' s1 m * F m) (- INR n) (INR n)) as E.
      { rewrite <- rint_scal by apply FE. apply rint_ext; [lra |]. intros x _. unfold product. cbn [fold_right]. fold (product (map (normal_density x s) vs)). fold (F x).
        unfold normal_density. pose proof (normal_conj mu kappa s v x Hk Hs) as CJ. cbn zeta in CJ. fold mu' s0 s1 in CJ.
        transitivity ((normal_weight mu s0 x * normal_weight x s v) / (s * sqrt (2 * PI)) * F x); [field; lra |].
        rewrite CJ. unfold C. set (f := F x). field. lra. }
      rewrite E. field. lra.
    + replace (normal_density mu (s * sqrt (1 + / kappa)) v * normal_joint mu' (kappa + 1) s vs)
        with (C * (normal_joint mu' (kappa + 1) s vs * (s1 / s0))).
      * apply (is_lim_seq_scal_l _ C (normal_joint mu' (kappa + 1) s vs * (s1 / s0))). apply is_lim_seq_mult'; [exact IH | now apply nw_ratio].
      * assert (s1 / s0 = / sqrt (1 + / kappa)) as ES.
        { unfold s1, s0. replace (1 + / kappa) with ((kappa + 1) / kappa) by (field; lra). rewrite sqrt_div by lra. field. lra. }
        rewrite ES. unfold C, normal_density. field. lra.
Qed.
