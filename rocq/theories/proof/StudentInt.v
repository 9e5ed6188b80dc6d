(** The density of Student's t integrates to one. *)
From Coq Require Import Reals Lra Lia.
From Coquelicot Require Import Coquelicot.
From Verif.spec Require Import DrawSpec StudentSpec DensitySpec.
From Verif.proof Require Import LgammaBound FloatRel.
Local Open Scope R_scope.

(** ** Limits at plus infinity *)
Definition tends (f : R -> R) (l : R) : Prop := forall eps, 0 < eps -> exists T, forall x, T <= x -> Rabs (f x - l) < eps.
Lemma tends_ext f g l : (forall x, f x = g x) -> tends f l -> tends g l.
Proof. intros E H eps P. destruct (H eps P) as [T HT]. exists T. intros x Hx. rewrite <- E. now apply HT. Qed.
Lemma tends_plus f g l m : tends f l -> tends g m -> tends (fun x => f x + g x) (l + m).
Proof.
  intros H K eps P. destruct (H (eps / 2) ltac:(lra)) as [T HT]. destruct (K (eps / 2) ltac:(lra)) as [U HU]. exists (Rmax T U). intros x Hx.
  pose proof (HT x (Rle_trans _ _ _ (Rmax_l T U) Hx)) as A. pose proof (HU x (Rle_trans _ _ _ (Rmax_r T U) Hx)) as B.
  apply Rabs_def2 in A. apply Rabs_def2 in B. apply Rabs_def1; lra.
Qed.
Lemma tends_scal c f l : tends f l -> tends (fun x => c * f x) (c * l).
Proof.
  intros H eps P. assert (0 < Rabs c + 1) as Q by (pose proof (Rabs_pos c); lra).
  destruct (H (eps / (Rabs c + 1)) ltac:(now apply Rdiv_lt_0_compat)) as [T HT]. exists T. intros x Hx. specialize (HT x Hx).
  replace (c * f x - c * l) with (c * (f x - l)) by ring. rewrite Rabs_mult. pose proof (Rabs_pos c). pose proof (Rabs_pos (f x - l)).
  apply Rle_lt_trans with ((Rabs c) * (eps / (Rabs c + 1))); [apply Rmult_le_compat_l; lra |].
  replace eps with ((Rabs c + 1) * (eps / (Rabs c + 1))) at 2 by (field; lra). apply Rmult_lt_compat_r; [now apply Rdiv_lt_0_compat | lra].
Qed.
Lemma tends_unique f l m : tends f l -> tends f m -> l = m.
Proof.
  intros H K. apply cond_eq. intros eps P. destruct (H (eps / 2) ltac:(lra)) as [T HT]. destruct (K (eps / 2) ltac:(lra)) as [U HU].
  pose proof (HT _ (Rmax_l T U)) as A. pose proof (HU _ (Rmax_r T U)) as B. apply Rabs_def2 in A. apply Rabs_def2 in B. apply Rabs_def1; lra.
Qed.
Lemma tends_le f g l m : (forall x, 0 <= x -> f x <= g x) -> tends f l -> tends g m -> l <= m.
Proof.
  intros E H K. apply Rnot_lt_le. intros L. destruct (H ((l - m) / 2) ltac:(lra)) as [T HT]. destruct (K ((l - m) / 2) ltac:(lra)) as [U HU].
  set (x := Rmax 0 (Rmax T U)). pose proof (Rmax_l 0 (Rmax T U)) as X0. pose proof (Rmax_r 0 (Rmax T U)) as X1. fold x in X0, X1.
  pose proof (Rmax_l T U). pose proof (Rmax_r T U). specialize (E x X0). specialize (HT x ltac:(lra)). specialize (HU x ltac:(lra)).
  apply Rabs_def2 in HT. apply Rabs_def2 in HU. lra.
Qed.
(** a bounded increasing function converges *)
Lemma tends_sup f M : (forall x y, 0 <= x <= y -> f x <= f y) -> (forall x, 0 <= x -> f x <= M) -> exists l, tends f l /\ f 0 <= l /\ forall x, 0 <= x -> f x <= l.
Proof.
  intros Hi Hb. destruct (completeness (fun y => exists x, 0 <= x /\ y = f x)) as [l [U L]].
  - exists M. intros y (x & Hx & ->). now apply Hb.
  - exists (f 0), 0. split; [lra | reflexivity].
  - assert (forall x, 0 <= x -> f x <= l) as B by (intros x Hx; apply U; now exists x).
    exists l. split; [| split; [apply B; lra | exact B]]. intros eps P. destruct (Classical_Prop.classic (exists x, 0 <= x /\ l - eps < f x)) as [(x & Hx & Lx) | N].
    + exists x. intros y Hy. pose proof (Hi x y ltac:(lra)). pose proof (B y ltac:(lra)). apply Rabs_def1; lra.
    + exfalso. assert (l <= l - eps); [| lra]. apply L. intros y (x & Hx & ->). apply Rnot_lt_le. intros Q. apply N. now exists x.
Qed.

Lemma exp_mono x y : x <= y -> exp x <= exp y.
Proof. intros [H | ->]; [left; now apply exp_increasing | lra]. Qed.

(** ** The kernel *)
Definition ker (p x : R) : R := exp (- p * ln (1 + x * x)).
Lemma one_sq x : 1 <= 1 + x * x.
Proof. pose proof (Rle_0_sqr x). unfold Rsqr in *. lra. Qed.
Lemma ker_pos p x : 0 < ker p x.
Proof. apply exp_pos. Qed.
Lemma ker_even p x : ker p (- x) = ker p x.
Proof. unfold ker. do 3 f_equal. ring. Qed.
Lemma ker_step p x : ker (p + 1) x = ker p x / (1 + x * x).
Proof.
  unfold ker. pose proof (one_sq x). replace (- (p + 1) * ln (1 + x * x)) with (- p * ln (1 + x * x) + - ln (1 + x * x)) by ring.
  rewrite exp_plus, exp_Ropp, exp_ln by lra. reflexivity.
Qed.
Lemma ker_le p q x : p <= q -> ker q x <= ker p x.
Proof.
  intros H. unfold ker. apply exp_mono. pose proof (one_sq x). assert (0 <= ln (1 + x * x)) by (rewrite <- ln_1; apply ln_le'; lra).
  apply Rmult_le_compat_r; lra.
Qed.
Lemma ker_der p x : is_derive (ker p) x (- 2 * p * x * ker (p + 1) x).
Proof.
  pose proof (one_sq x). rewrite ker_step. unfold ker. auto_derive; [lra |]. field. lra.
Qed.
Lemma ker_cont p x : continuous (ker p) x.
Proof. apply (ex_derive_continuous (ker p)). eexists. apply ker_der. Qed.
Lemma ker_int p a b : ex_RInt (ker p) a b.
Proof. apply (ex_RInt_continuous (V:=R_CompleteNormedModule)). intros. apply ker_cont. Qed.

Definition prim (p x : R) : R := RInt (ker p) 0 x.
Lemma prim_der p x : is_derive (prim p) x (ker p x).
Proof.
  apply (is_derive_RInt (ker p) (prim p) 0 x); [| apply ker_cont].
  apply filter_forall. intros b. exact (RInt_correct (V:=R_CompleteNormedModule) (ker p) 0 b (ker_int p 0 b)).
Qed.
Lemma prim_0 p : prim p 0 = 0.
Proof. unfold prim. rewrite RInt_point. reflexivity. Qed.
Lemma prim_RInt p a b : RInt (ker p) a b = prim p b - prim p a.
Proof.
  unfold prim. rewrite <- (RInt_Chasles (ker p) 0 a b) by apply ker_int. unfold plus. cbn. ring.
Qed.
Lemma prim_incr p x y : x <= y -> prim p x <= prim p y.
Proof.
  intros H. assert (0 <= RInt (ker p) x y) as P by (apply RInt_ge_0; [exact H | apply ker_int | intros; left; apply ker_pos]).
  rewrite prim_RInt in P. lra.
Qed.
Lemma prim_le p q x : p <= q -> 0 <= x -> prim q x <= prim p x.
Proof. intros H Hx. unfold prim. apply RInt_le; [exact Hx | apply ker_int | apply ker_int | intros; now apply ker_le]. Qed.

(** two functions with the same derivative and the same value at 0 *)
Lemma same_primitive (f g : R -> R) (d : R -> R) x : (forall z, is_derive f z (d z)) -> (forall z, is_derive g z (d z)) -> f 0 = g 0 -> f x = g x.
Proof.
  intros Hf Hg E. assert (forall z, is_derive (fun y => f y - g y) z 0) as D.
  { intros z. replace 0 with (minus (d z) (d z)) by (unfold minus, plus, opp; cbn; ring). apply (is_derive_minus f g z); auto. }
  assert (f x - g x = f 0 - g 0) as Q; [| lra].
  destruct (MVT_gen (fun y => f y - g y) 0 x (fun _ => 0)) as (c & _ & Hc).
  - intros z _. apply D.
  - intros z _. apply continuity_pt_filterlim. apply (ex_derive_continuous (fun y => f y - g y)). eexists. apply D.
  - lra.
Qed.

Lemma prim_odd p x : prim p (- x) = - prim p x.
Proof.
  apply (same_primitive (fun x => prim p (- x)) (fun x => - prim p x) (fun x => - ker p x)).
  - intros z. replace (- ker p z) with (scal (- (1)) (ker p (- z))) by (rewrite ker_even; unfold scal; cbn; unfold mult; cbn; ring).
    apply (is_derive_comp (prim p) Ropp z (ker p (- z)) (- (1))); [apply prim_der |].
    apply is_derive_Reals. apply (derivable_pt_lim_opp (fun y => y) z 1). apply derivable_pt_lim_id.
  - intros z. apply (is_derive_opp (prim p) z). apply prim_der.
  - rewrite Ropp_0, prim_0. ring.
Qed.
Lemma prim_step p x : x * ker p x = (1 - 2 * p) * prim p x + 2 * p * prim (p + 1) x.
Proof.
  apply (same_primitive (fun x => x * ker p x) (fun x => (1 - 2 * p) * prim p x + 2 * p * prim (p + 1) x) (fun x => (1 - 2 * p) * ker p x + 2 * p * ker (p + 1) x)).
  - intros z. replace ((1 - 2 * p) * ker p z + 2 * p * ker (p + 1) z) with (1 * ker p z + z * (- 2 * p * z * ker (p + 1) z)).
    + apply (is_derive_mult (fun y => y) (ker p) z 1 (- 2 * p * z * ker (p + 1) z)); [apply is_derive_Reals, derivable_pt_lim_id | apply ker_der | intros; apply Rmult_comm].
    + rewrite ker_step. pose proof (one_sq z). field. lra.
  - intros z. apply (is_derive_plus (fun y => (1 - 2 * p) * prim p y) (fun y => 2 * p * prim (p + 1) y)); apply is_derive_scal; apply prim_der.
  - rewrite !prim_0. ring.
Qed.
Lemma prim_one x : prim 1 x = atan x.
Proof.
  apply (same_primitive (prim 1) atan (ker 1)); [apply prim_der | | rewrite prim_0, atan_0; reflexivity].
  intros z. apply is_derive_Reals. replace (ker 1 z) with (/ (1 + z ^ 2)); [apply derivable_pt_lim_atan |].
  unfold ker. pose proof (one_sq z). replace (- (1) * ln (1 + z * z)) with (- ln (1 + z * z)) by ring. rewrite exp_Ropp, exp_ln by lra. f_equal. ring.
Qed.
Lemma prim_three_halves x : prim (3 / 2) x = x * ker (/ 2) x.
Proof. rewrite prim_step. replace (/ 2 + 1) with (3 / 2) by field. field. Qed.

Lemma atan_tends : tends atan (PI / 2).
Proof.
  intros eps P. pose proof PI_RGT_0 as PP. set (e := Rmin (eps / 2) (PI / 4)). assert (0 < e <= PI / 4 /\ e < eps) as (E1 & E2).
  { unfold e. pose proof (Rmin_l (eps / 2) (PI / 4)). pose proof (Rmin_r (eps / 2) (PI / 4)). split; [split; [apply Rmin_pos; lra | lra] | lra]. }
  exists (tan (PI / 2 - e)). intros x Hx. pose proof (atan_bound x) as B.
  assert (PI / 2 - e <= atan x).
  { rewrite <- (atan_tan (PI / 2 - e)) by lra. destruct Hx as [Hx | ->]; [left; now apply atan_increasing | lra]. }
  apply Rabs_def1; lra.
Qed.
Lemma edge_tends p : / 2 < p -> tends (fun x => x * ker p x) 0.
Proof.
  intros Hp eps P. set (T := exp (- ln eps / (2 * p - 1) + 1)). exists (Rmax 1 T). intros x Hx.
  assert (1 <= x) as X1 by (eapply Rle_trans; [apply Rmax_l | exact Hx]). assert (T <= x) as XT by (eapply Rle_trans; [apply Rmax_r | exact Hx]).
  pose proof (ker_pos p x). rewrite Rminus_0_r, Rabs_pos_eq by (apply Rmult_le_pos; lra).
  assert (- ln eps / (2 * p - 1) + 1 <= ln x) as L by (rewrite <- (ln_exp (- ln eps / (2 * p - 1) + 1)); apply ln_le'; [apply exp_pos | exact XT]).
  replace x with (exp (ln x)) at 1 by (apply exp_ln; lra). unfold ker. rewrite <- exp_plus.
  replace eps with (exp (ln eps)) at 1 by (now apply exp_ln). apply exp_increasing.
  assert (2 * ln x <= ln (1 + x * x)) as K.
  { replace (2 * ln x) with (ln (x * x)) by (rewrite ln_mult by lra; ring). apply ln_le'; nra. }
  assert (p * (2 * ln x) <= p * ln (1 + x * x)) by (apply Rmult_le_compat_l; lra).
  assert ((2 * p - 1) * (- ln eps / (2 * p - 1) + 1) <= (2 * p - 1) * ln x) as M by (apply Rmult_le_compat_l; lra).
  replace ((2 * p - 1) * (- ln eps / (2 * p - 1) + 1)) with (- ln eps + (2 * p - 1)) in M by (field; lra). lra.
Qed.

(** ** Half the total mass, as a function of p *)
Lemma mass_large p : 1 <= p -> exists l, tends (prim p) l.
Proof.
  intros H. destruct (tends_sup (prim p) (PI / 2)) as (l & A & _).
  - intros x y Hx. apply prim_incr. lra.
  - intros x Hx. eapply Rle_trans; [apply (prim_le 1 p x H Hx) |]. rewrite prim_one. left. apply atan_bound.
  - now exists l.
Qed.
Lemma mass_step p l : / 2 < p -> tends (prim (p + 1)) l -> tends (prim p) (2 * p * l / (2 * p - 1)).
Proof.
  intros Hp H. pose proof (tends_plus _ _ _ _ (tends_scal (2 * p / (2 * p - 1)) _ _ H) (tends_scal (- / (2 * p - 1)) _ _ (edge_tends p Hp))) as K.
  replace (2 * p * l / (2 * p - 1)) with (2 * p / (2 * p - 1) * l + - / (2 * p - 1) * 0) by (field; lra).
  eapply tends_ext; [| exact K]. intros x. cbn beta. rewrite (prim_step p x). field. lra.
Qed.
Lemma mass_exists p : / 2 < p -> exists l, tends (prim p) l.
Proof.
  intros H. destruct (mass_large (p + 1) ltac:(lra)) as [l Hl]. exists (2 * p * l / (2 * p - 1)). exact (mass_step p l H Hl).
Qed.
Lemma mass_pos p l : tends (prim p) l -> 0 < l.
Proof.
  intros H. assert (0 < prim p 1) as P.
  { unfold prim. apply RInt_gt_0; [lra | intros; apply ker_pos | intros; apply ker_cont]. }
  apply Rlt_le_trans with (1 := P). apply Rnot_lt_le. intros L. destruct (H (prim p 1 - l) ltac:(lra)) as [T HT].
  specialize (HT (Rmax 1 T) (Rmax_r 1 T)). pose proof (prim_incr p 1 (Rmax 1 T) (Rmax_l 1 T)). apply Rabs_def2 in HT. lra.
Qed.

(** The mass as a function of the degrees of freedom is determined by its recurrence and by decreasing. *)
Section Mass.
  Variable lg : R -> R.
  Hypothesis HG : is_log_gamma lg.

  Definition gap (nu : R) : R := lg ((nu + 1) / 2) - lg (nu / 2).
  Lemma gap_step nu : 0 < nu -> gap (nu + 2) = gap nu + ln ((nu + 1) / nu).
  Proof using HG.
    intros H. unfold gap. replace ((nu + 2 + 1) / 2) with ((nu + 1) / 2 + 1) by field. replace ((nu + 2) / 2) with (nu / 2 + 1) by field.
    rewrite !(lg_rec lg HG) by lra. replace ((nu + 1) / nu) with ((nu + 1) / 2 * / (nu / 2)) by (field; lra).
    rewrite (ln_mult ((nu + 1) / 2)), ln_Rinv by (try apply Rinv_0_lt_compat; lra). ring.
  Qed.
  Lemma gap_near nu : 0 < nu -> / 2 * ln (nu / 2) - / (2 * nu) <= gap nu <= / 2 * ln (nu / 2).
  Proof using HG.
    intros H. unfold gap. pose proof (lg_up lg HG (nu / 2) (/ 2) ltac:(lra) ltac:(lra)) as U. pose proof (lg_low lg HG (nu / 2) (/ 2) ltac:(lra) ltac:(lra)) as L.
    replace (nu / 2 + / 2) with ((nu + 1) / 2) in * by field.
    assert (ln ((nu + 1) / 2) - ln (nu / 2) <= / nu) as D.
    { rewrite <- ln_div by lra. replace ((nu + 1) / 2 / (nu / 2)) with (1 + / nu) by (field; lra). pose proof (Rinv_0_lt_compat nu H).
      rewrite <- (ln_exp (/ nu)) at 2. apply ln_le'; [lra | apply exp_ineq1_le]. }
    rewrite Rinv_mult. lra.
  Qed.

  Variable mass : R -> R.
  Hypothesis Hm : forall nu, 0 < nu -> tends (prim ((nu + 1) / 2)) (mass nu).
  Lemma m_pos nu : 0 < nu -> 0 < mass nu.
  Proof using Hm. intros H. exact (mass_pos _ _ (Hm nu H)). Qed.
  Lemma m_step nu : 0 < nu -> mass nu = (nu + 1) / nu * mass (nu + 2).
  Proof using Hm.
    intros H. apply (tends_unique _ _ _ (Hm nu H)). pose proof (Hm (nu + 2) ltac:(lra)) as K. replace ((nu + 2 + 1) / 2) with ((nu + 1) / 2 + 1) in K by field.
    apply mass_step in K; [| lra]. replace ((nu + 1) / nu * mass (nu + 2)) with (2 * ((nu + 1) / 2) * mass (nu + 2) / (2 * ((nu + 1) / 2) - 1)) by (field; lra). exact K.
  Qed.
  Lemma m_decr a b : 0 < a <= b -> mass b <= mass a.
  Proof using Hm. intros H. apply (tends_le (prim ((b + 1) / 2)) (prim ((a + 1) / 2))); [intros x Hx; apply prim_le; lra | apply Hm; lra | apply Hm; lra]. Qed.

  Definition dif (nu : R) : R := ln (mass nu) + gap nu.
  Lemma dif_step nu : 0 < nu -> dif (nu + 2) = dif nu.
  Proof using HG Hm.
    intros H. unfold dif. rewrite gap_step, (m_step nu) by exact H. rewrite (ln_mult ((nu + 1) / nu)); [ring | apply Rdiv_lt_0_compat; lra | apply m_pos; lra].
  Qed.
  Lemma dif_steps nu n : 0 < nu -> dif (nu + 2 * INR n) = dif nu.
  Proof using HG Hm.
    intros H. induction n as [|n IH]; [cbn [INR]; f_equal; ring |]. rewrite S_INR, <- IH.
    replace (nu + 2 * (INR n + 1)) with (nu + 2 * INR n + 2) by ring. apply dif_step. pose proof (pos_INR n). lra.
  Qed.
  Lemma m_steps nu m : 0 < nu -> ln (mass nu) - INR m / nu <= ln (mass (nu + 2 * INR m)).
  Proof using Hm.
    intros H. pose proof (Rinv_0_lt_compat nu H) as Pi. induction m as [|m IH]; [cbn [INR]; right; replace (nu + 2 * 0) with nu by ring; field; lra |].
    pose proof (pos_INR m) as Pm. rewrite S_INR. replace (nu + 2 * (INR m + 1)) with (nu + 2 * INR m + 2) by ring.
    set (x := nu + 2 * INR m) in *. assert (nu <= x) as Lx by (unfold x; lra). rewrite (m_step x) in IH by lra.
    rewrite ln_mult in IH by (try apply m_pos; try apply Rdiv_lt_0_compat; lra).
    assert (ln ((x + 1) / x) <= / nu).
    { replace ((x + 1) / x) with (1 + / x) by (field; lra). pose proof (Rinv_0_lt_compat x ltac:(lra)). assert (/ x <= / nu) by (apply Rinv_le_contravar; lra).
      apply Rle_trans with (/ x); [| lra]. rewrite <- (ln_exp (/ x)) at 2. apply ln_le'; [lra | apply exp_ineq1_le]. }
    unfold Rdiv in *. lra.
  Qed.
  Lemma dif_near a b m : 0 < a <= b -> b <= a + 2 * INR m -> Rabs (dif b - dif a) <= (2 * INR m + 1) / a.
  Proof using HG Hm.
    intros H Hb. pose proof (pos_INR m) as Pm. assert (0 < / a) as Pi by (apply Rinv_0_lt_compat; lra).
    pose proof (m_steps a m ltac:(lra)) as L1. pose proof (m_decr b (a + 2 * INR m) ltac:(lra)) as L2. pose proof (m_decr a b H) as L3.
    apply ln_le' in L2; [| apply m_pos; lra]. apply ln_le' in L3; [| apply m_pos; lra].
    pose proof (gap_near a ltac:(lra)) as Ga. pose proof (gap_near b ltac:(lra)) as Gb. rewrite Rinv_mult in Ga, Gb.
    assert (/ b <= / a) by (apply Rinv_le_contravar; lra).
    assert (0 <= ln (b / 2) - ln (a / 2) <= 2 * INR m * / a) as D.
    { split; [assert (ln (a / 2) <= ln (b / 2)) by (apply ln_le'; lra); lra |]. rewrite <- ln_div by lra. replace (b / 2 / (a / 2)) with (b / a) by (field; lra).
      apply Rle_trans with (b / a - 1).
      - rewrite <- (ln_exp (b / a - 1)). apply ln_le'; [apply Rdiv_lt_0_compat; lra |]. pose proof (exp_ineq1_le (b / a - 1)). lra.
      - replace (b / a - 1) with ((b - a) * / a) by (field; lra). apply Rmult_le_compat_r; lra. }
    unfold dif. unfold Rdiv in *. apply Rabs_le. split; lra.
  Qed.
  Lemma dif_const a b : 0 < a <= b -> dif a = dif b.
  Proof using HG Hm.
    intros H. destruct (nfloor_ex ((b - a) / 2) ltac:(lra)) as [m0 Hb0]. set (m := S m0). assert (b <= a + 2 * INR m) as Hb' by (unfold m; rewrite S_INR; lra). pose proof (pos_INR m) as Pm.
    assert (forall n, Rabs (dif b - dif a) <= (2 * INR m + 1) / (2 * INR (S n))) as K.
    { intros n. rewrite <- (dif_steps a (S n)), <- (dif_steps b (S n)) by lra. assert (0 < INR (S n)) as Pn by (apply lt_0_INR; lia).
      eapply Rle_trans; [apply (dif_near _ _ m); lra |]. unfold Rdiv. apply Rmult_le_compat_l; [lra |]. apply Rinv_le_contravar; lra. }
    assert (Rabs (dif b - dif a) <= 0) as Z.
    { apply (vanish_le _ _ ((2 * INR m + 1) / 2)); [lra |]. intros n. eapply Rle_trans; [apply (K n) |]. right. assert (0 < INR (S n)) as Pn by (apply lt_0_INR; lia). revert Pn. generalize (INR (S n)) (INR m). intros u w Pu. field. lra. }
    pose proof (Rabs_pos (dif b - dif a)). assert (dif b - dif a = 0); [| lra]. destruct (Req_dec (dif b - dif a) 0) as [Q | Q]; [exact Q |]. apply Rabs_pos_lt in Q. lra.
  Qed.
  Lemma m_one : mass 1 = PI / 2.
  Proof using Hm.
    apply (tends_unique (prim 1)); [replace 1 with ((1 + 1) / 2) at 1 by field; apply Hm; lra |]. apply (tends_ext atan); [intros; symmetry; apply prim_one | apply atan_tends].
  Qed.
  Lemma m_two : mass 2 = 1.
  Proof using Hm.
    apply (tends_unique (prim (3 / 2))); [replace (3 / 2) with ((2 + 1) / 2) by field; apply Hm; lra |].
    intros eps P. exists (Rmax 1 (/ eps + 1)). intros x Hx. assert (1 <= x) as X1 by (eapply Rle_trans; [apply Rmax_l | exact Hx]). assert (/ eps + 1 <= x) as XT by (eapply Rle_trans; [apply Rmax_r | exact Hx]).
    rewrite prim_three_halves. unfold ker. set (s := exp (- / 2 * ln (1 + x * x))).
    assert (0 < s) as Ps by apply exp_pos. assert (s * s * (1 + x * x) = 1) as Es.
    { unfold s. rewrite <- exp_plus. replace (- / 2 * ln (1 + x * x) + - / 2 * ln (1 + x * x)) with (- ln (1 + x * x)) by field. rewrite exp_Ropp, exp_ln by nra. field. nra. }
    assert (0 < x * s) as Pxs by (apply Rmult_lt_0_compat; lra).
    assert ((x * s) * (x * s) = 1 - s * s) as Q by (replace (x * s * (x * s)) with (s * s * (1 + x * x) - s * s) by ring; lra).
    assert (x * s < 1) as L by nra.
    assert (s < eps) as Se.
    { assert (s * x < 1) by lra. assert (0 < / eps) by (now apply Rinv_0_lt_compat). assert (s * / eps < 1) as W by nra.
      apply (Rmult_lt_compat_r eps) in W; [| exact P]. rewrite Rmult_assoc, Rinv_l in W by lra. lra. }
    assert (s < 1) as S1 by nra. apply Rabs_def1; [lra |]. assert (1 - x * s <= s * s) by nra. assert (s * s < eps) by nra. lra.
  Qed.
  Theorem mass_value nu : 0 < nu -> ln (2 * mass nu) = / 2 * ln PI - gap nu.
  Proof using HG Hm.
    intros H. pose proof PI_RGT_0 as PP. assert (dif 1 = dif 2) as E by (apply dif_const; lra).
    unfold dif in E. rewrite m_one, m_two, ln_1 in E. unfold gap in E. replace ((1 + 1) / 2) with 1 in E by field. replace (2 / 2) with 1 in E by field.
    replace ((2 + 1) / 2) with (1 / 2 + 1) in E by field. rewrite (lg_rec lg HG), (lg_1 lg HG) in E by lra. set (h := lg (1 / 2)) in *.
    assert (dif nu = dif 1) as D by (destruct (Rle_dec nu 1); [apply dif_const | symmetry; apply dif_const]; lra).
    unfold dif in D. rewrite m_one in D. unfold gap in D at 2. replace ((1 + 1) / 2) with 1 in D by field. rewrite (lg_1 lg HG) in D. fold h in D.
    rewrite (ln_div PI 2) in E, D by lra. rewrite (ln_div 1 2), ln_1 in E by lra. rewrite ln_mult; [| lra | now apply m_pos]. lra.
  Qed.
End Mass.

(** half the mass, as a limit *)
Definition half_mass (nu : R) : R := real (Lim (prim ((nu + 1) / 2)) p_infty).
Lemma half_mass_tends nu : 0 < nu -> tends (prim ((nu + 1) / 2)) (half_mass nu).
Proof.
  intros H. destruct (mass_exists ((nu + 1) / 2) ltac:(lra)) as [l Hl]. unfold half_mass.
  assert (is_lim (prim ((nu + 1) / 2)) p_infty l) as L.
  { apply is_lim_spec. intros eps. destruct (Hl eps (cond_pos eps)) as [T HT]. exists T. intros x Hx. apply HT. lra. }
  rewrite (is_lim_unique _ _ _ L). exact Hl.
Qed.

(** ** A bump with the kernel's shape, of any height, width and place *)
Definition bump (h s c p x : R) : R := h * ker p (s * (x - c)).
Lemma bump_RInt h s c p a b : 0 < s -> is_RInt (bump h s c p) a b (h / s * (prim p (s * (b - c)) - prim p (s * (a - c)))).
Proof.
  intros Hs. set (G := fun x => h / s * prim p (s * (x - c))).
  assert (forall x, is_derive G x (bump h s c p x)) as D.
  { intros x. unfold G, bump. replace (h * ker p (s * (x - c))) with (h / s * (s * ker p (s * (x - c)))) by (field; lra).
    apply (is_derive_scal (fun x => prim p (s * (x - c))) x (h / s)).
    apply (is_derive_comp (prim p) (fun x => s * (x - c)) x (ker p (s * (x - c))) s); [apply prim_der |].
    auto_derive; [trivial | ring]. }
  replace (h / s * (prim p (s * (b - c)) - prim p (s * (a - c)))) with (minus (G b) (G a)) by (unfold G, minus, plus, opp; cbn; ring).
  apply (is_RInt_derive G (bump h s c p)); [intros; apply D |].
  intros x _. unfold bump. apply (ex_derive_continuous (fun x => h * ker p (s * (x - c)))). apply ex_derive_scal.
  apply (ex_derive_comp (ker p) (fun x => s * (x - c))); [eexists; apply ker_der |]. auto_derive. trivial.
Qed.
Lemma bump_mass h s c nu : 0 < s -> 0 < nu -> total_mass (bump h s c ((nu + 1) / 2)) (h / s * (2 * half_mass nu)).
Proof.
  intros Hs Hn eps P. pose proof (half_mass_tends nu Hn) as L. set (p := (nu + 1) / 2) in *.
  destruct (tends_scal (h / s) _ _ L (eps / 2) ltac:(lra)) as [T HT]. exists (Rmax T 0 / s + Rabs c). intros a b Ha Hb.
  pose proof (bump_RInt h s c p a b Hs) as I. split; [eexists; exact I |]. rewrite (is_RInt_unique _ _ _ _ I).
  assert (Rmax T 0 / s * s = Rmax T 0) as E by (field; lra). pose proof (Rle_abs c). pose proof (Rle_abs (- c)) as N. rewrite Rabs_Ropp in N. pose proof (Rmax_l T 0).
  assert (T <= s * (b - c)) as B1 by (assert (Rmax T 0 / s * s <= (b - c) * s) by (apply Rmult_le_compat_r; lra); lra).
  assert (T <= - (s * (a - c))) as A1 by (assert (Rmax T 0 / s * s <= (c - a) * s) by (apply Rmult_le_compat_r; lra); lra).
  pose proof (HT _ B1) as B2. pose proof (HT _ A1) as A2. rewrite prim_odd in A2. apply Rabs_def2 in A2. apply Rabs_def2 in B2. apply Rabs_def1; lra.
Qed.
Lemma total_mass_ext f g m : (forall x, f x = g x) -> total_mass f m -> total_mass g m.
Proof.
  intros E H eps P. destruct (H eps P) as [T HT]. exists T. intros a b Ha Hb. destruct (HT a b Ha Hb) as [X Y].
  split; [apply (ex_RInt_ext f g); [intros; apply E | exact X] |]. rewrite <- (RInt_ext f g) by (intros; apply E). exact Y.
Qed.

Theorem student_mass lg nu mu lambda k : is_log_gamma lg -> 0 < nu -> 0 < lambda ->
  total_mass (fun x => exp (student_t lg nu mu lambda x + k)) (exp k).
Proof.
  intros HG Hn Hl. pose proof PI_RGT_0 as PP. set (s := exp (/ 2 * ln (lambda / nu))). assert (0 < s) as Ps by apply exp_pos.
  assert (0 < lambda / nu) as Pq by (now apply Rdiv_lt_0_compat).
  assert (s * s = lambda / nu) as Es by (unfold s; rewrite <- exp_plus; replace (/ 2 * ln (lambda / nu) + / 2 * ln (lambda / nu)) with (ln (lambda / nu)) by field; now apply exp_ln).
  set (C := gap lg nu + ln (lambda / (nu * PI)) / 2). set (h := exp (C + k)).
  assert (total_mass (bump h s mu ((nu + 1) / 2)) (exp k)) as M.
  { replace (exp k) with (h / s * (2 * half_mass nu)); [now apply bump_mass |].
    assert (0 < half_mass nu) as Pm by (apply (mass_pos _ _ (half_mass_tends nu Hn))).
    rewrite <- (exp_ln (2 * half_mass nu)) by lra. rewrite (mass_value lg HG half_mass half_mass_tends nu Hn).
    unfold h, s, Rdiv. rewrite <- exp_Ropp, <- !exp_plus. f_equal. unfold C. fold (lambda / (nu * PI)). fold (lambda / nu).
    replace (lambda / (nu * PI)) with (lambda / nu * / PI) by (field; lra). rewrite ln_mult, ln_Rinv by (try apply Rinv_0_lt_compat; lra). field. }
  eapply total_mass_ext; [| exact M]. intros x. unfold bump, ker, h, student_t. rewrite <- exp_plus. f_equal. unfold C, gap.
  replace (s * (x - mu) * (s * (x - mu))) with (lambda * (x - mu) ^ 2 / nu) by (replace (s * (x - mu) * (s * (x - mu))) with (s * s * (x - mu) ^ 2) by ring; rewrite Es; field; lra).
  field.
Qed.
