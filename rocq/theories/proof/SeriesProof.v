(** Infinite sums: the binomial series with real exponent and a telescoping beta series. *)
From Coq Require Import Reals Lra Lia.
From Verif.spec Require Import LgammaSpec.
From Coquelicot Require Import Coquelicot.
Local Open Scope R_scope.

Lemma rising_pos r n : 0 < r -> 0 < rising r n.
Proof.
  intro Hr. induction n as [|n IH]; cbn [rising]; [lra|].
  apply Rmult_lt_0_compat; [exact IH|]. pose proof (pos_INR n). lra.
Qed.

Section Binomial.
  Variable r : R.
  Hypothesis Hr : 0 < r.

  Definition bcoef (n : nat) : R := rising r n / INR (fact n).

  Lemma bcoef_pos n : 0 < bcoef n.
  Proof. apply Rdiv_lt_0_compat; [now apply rising_pos|apply INR_fact_lt_0]. Qed.

  Lemma bcoef_S n : INR (S n) * bcoef (S n) = (r + INR n) * bcoef n.
  Proof.
    unfold bcoef. cbn [rising]. rewrite fact_simpl, mult_INR. field.
    split; [apply not_0_INR; apply fact_neq_0|apply not_0_INR; lia].
  Qed.

  Lemma lim_ratio : is_lim_seq (fun n => (r - 1) / INR (S n)) 0.
  Proof.
    apply (is_lim_seq_ext (fun n => (r - 1) * / INR (S n))); [reflexivity|].
    replace (Finite 0) with (Rbar_mult (r - 1) 0) by (cbn; f_equal; lra).
    apply is_lim_seq_scal_l.
    apply (is_lim_seq_incr_1 (fun n => / INR n)).
    replace (Finite 0) with (Rbar_inv p_infty) by reflexivity.
    apply is_lim_seq_inv; [apply is_lim_seq_INR|discriminate].
  Qed.

  Lemma bcoef_radius : CV_radius bcoef = Finite 1.
  Proof.
    replace 1 with (/ 1) by lra.
    apply CV_radius_finite_DAlembert.
    - intro n. apply Rgt_not_eq, bcoef_pos.
    - lra.
    - apply (is_lim_seq_ext (fun n => 1 + (r - 1) / INR (S n))).
      + intro n. rewrite Rabs_pos_eq.
        2:{ apply Rlt_le, Rdiv_lt_0_compat; apply bcoef_pos. }
        pose proof (bcoef_S n) as E. pose proof (bcoef_pos n) as P.
        assert (Q : 0 < INR (S n)) by (apply lt_0_INR; lia).
        apply (Rmult_eq_reg_l (INR (S n))); [|lra].
        replace (INR (S n) * (bcoef (S n) / bcoef n)) with ((INR (S n) * bcoef (S n)) / bcoef n) by (field; lra).
        rewrite E. rewrite S_INR. field. split; [lra|]. rewrite <- S_INR. lra.
      + replace (Finite 1) with (Finite (1 + 0)) by (f_equal; lra).
        apply (is_lim_seq_plus' (fun _ => 1)); [apply is_lim_seq_const|apply lim_ratio].
  Qed.

  Lemma bser_ode x : Rabs x < 1 -> (1 - x) * PSeries (PS_derive bcoef) x = r * PSeries bcoef x.
  Proof.
    intro Hx.
    assert (E0 : ex_pseries bcoef x) by (apply CV_radius_inside; rewrite bcoef_radius; exact Hx).
    assert (E1 : ex_pseries (PS_derive bcoef) x).
    { apply CV_radius_inside. rewrite CV_radius_derive, bcoef_radius. exact Hx. }
    rewrite Rmult_minus_distr_r, Rmult_1_l, <- PSeries_incr_1, <- PSeries_scal.
    rewrite <- PSeries_minus; [|exact E1|now apply ex_pseries_incr_1].
    apply PSeries_ext. intro n. unfold PS_minus, PS_plus, PS_opp, PS_scal, PS_derive, plus, opp, scal; cbn -[INR bcoef].
    unfold mult; cbn -[INR bcoef]. rewrite bcoef_S.
    destruct n as [|n]; cbn [PS_incr_1]; unfold zero; cbn -[INR bcoef].
    - rewrite Ropp_0, !Rplus_0_r. reflexivity.
    - ring.
  Qed.

  Lemma bser_deriv x : Rabs x < 1 ->
    is_derive (fun t => PSeries bcoef t * exp (r * ln (1 - t))) x 0.
  Proof.
    intro Hx. assert (Hx1 : x < 1) by (apply Rabs_def2 in Hx; lra).
    assert (D1 : is_derive (fun t => exp (r * ln (1 - t))) x (exp (r * ln (1 - x)) * (r * (- 1 / (1 - x))))).
    { auto_derive; [lra|]. unfold Rminus, Rdiv. ring. }
    assert (D0 : is_derive (PSeries bcoef) x (PSeries (PS_derive bcoef) x)).
    { apply is_derive_PSeries. rewrite bcoef_radius. exact Hx. }
    pose proof (is_derive_mult (K:=R_AbsRing) _ _ x _ _ D0 D1 Rmult_comm) as D.
    eapply is_derive_ext; [intro t; reflexivity|].
    match type of D with is_derive _ _ ?l => replace 0 with l; [exact D|] end.
    unfold plus, mult; cbn -[PSeries]. pose proof (bser_ode x Hx) as O.
    apply (Rmult_eq_reg_l (1 - x)); [|lra].
    transitivity (exp (r * ln (1 - x)) * ((1 - x) * PSeries (PS_derive bcoef) x - r * PSeries bcoef x)).
    - field. lra.
    - rewrite O. ring.
  Qed.

  Lemma bser_closed p : 0 < p < 1 -> PSeries bcoef p * Rpower (1 - p) r = 1.
  Proof.
    intros [P0 P1].
    pose proof (eq_is_derive (fun t => PSeries bcoef t * exp (r * ln (1 - t))) 0 p) as E.
    unfold Rpower. rewrite <- E; [| |exact P0].
    - rewrite PSeries_0, Rminus_0_r, ln_1, Rmult_0_r, exp_0. unfold bcoef; cbn. lra.
    - intros t Ht. apply bser_deriv. rewrite Rabs_pos_eq; lra.
  Qed.

  (** The negative binomial distribution sums to one. *)
  Lemma negbin_sum p : 0 < p < 1 ->
    infinite_sum (fun v => rising r v / INR (fact v) * Rpower (1 - p) r * p ^ v) 1.
  Proof.
    intro Hp. apply is_series_Reals.
    assert (E : Rpower (1 - p) r * PSeries bcoef p = 1) by (rewrite Rmult_comm; now apply bser_closed).
    match goal with |- is_series ?f _ => cut (is_series f (Rpower (1 - p) r * PSeries bcoef p)) end.
    { now rewrite E. }
    apply (is_series_ext (fun v => Rpower (1 - p) r * (bcoef v * p ^ v))).
    { intro n. match goal with |- ?x = ?y => change (@eq R x y) end. unfold bcoef, Rdiv. ring. }
    apply (is_series_scal (K:=R_AbsRing) (V:=R_NormedModule) (Rpower (1 - p) r)).
    apply Series_correct. 
    assert (X : ex_pseries bcoef p).
    { apply CV_radius_inside. rewrite bcoef_radius. cbn. rewrite Rabs_pos_eq; lra. }
    apply (ex_series_ext (fun k => scal (pow_n p k) (bcoef k))); [|exact X].
    intro n. rewrite pow_n_pow. match goal with |- ?x = ?y => change (@eq R x y) end. apply Rmult_comm.
  Qed.
End Binomial.

Section Telescope.
  Variables a b : R.
  Hypotheses (Ha : 0 < a) (Hb : 0 < b).

  Definition tel (v : nat) : R := rising b v / rising (a + b) v.

  Lemma tel_pos v : 0 < tel v.
  Proof. apply Rdiv_lt_0_compat; apply rising_pos; lra. Qed.

  (** 1 / tel v >= 1 + a (ln (b + v) - ln b) *)
  Lemma tel_inv v : 1 + a * (ln (b + INR v) - ln b) <= / tel v.
  Proof.
    induction v as [|v IH].
    - unfold tel; cbn. rewrite Rplus_0_r. replace (1 / 1) with 1 by lra. rewrite Rinv_1. lra.
    - pose proof (pos_INR v) as P. pose proof (tel_pos v) as T.
      assert (E : / tel (S v) = / tel v * (1 + a / (b + INR v))).
      { unfold tel. cbn [rising]. pose proof (rising_pos b v Hb). assert (0 < a + b) by lra.
        pose proof (rising_pos (a + b) v H0). field. repeat split; lra. }
      rewrite E.
      assert (G1 : 1 <= / tel v).
      { eapply Rle_trans; [|exact IH].
        assert (ln b <= ln (b + INR v)) by (destruct P as [P|P]; [left; apply ln_increasing; lra|rewrite <- P, Rplus_0_r; lra]).
        assert (0 <= a * (ln (b + INR v) - ln b)) by (apply Rmult_le_pos; lra). lra. }
      assert (Q : 0 < a / (b + INR v)) by (apply Rdiv_lt_0_compat; lra).
      assert (G2 : ln (b + INR (S v)) - ln (b + INR v) <= / (b + INR v)).
      { rewrite <- ln_div by (rewrite ?S_INR; lra).
        replace ((b + INR (S v)) / (b + INR v)) with (1 + / (b + INR v)) by (rewrite S_INR; field; lra).
        set (y := / (b + INR v)). assert (0 < y) by (apply Rinv_0_lt_compat; lra).
        rewrite <- (ln_exp y) at 2. left. apply ln_increasing; [lra|]. apply exp_ineq1; lra. }
      assert (G3 : a * (ln (b + INR (S v)) - ln (b + INR v)) <= a / (b + INR v)).
      { unfold Rdiv. apply Rmult_le_compat_l; lra. }
      assert (G4 : a / (b + INR v) <= / tel v * (a / (b + INR v))) by (rewrite <- (Rmult_1_l (a / (b + INR v))) at 1; apply Rmult_le_compat_r; lra).
      lra.
  Qed.

  Lemma tel_lim : Un_cv tel 0.
  Proof.
    intros eps He.
    set (K := / a * / eps + ln b).
    destruct (archimed (exp K)) as [A _].
    assert (Z0 : (0 <= up (exp K))%Z) by (apply le_IZR; pose proof (exp_pos K); lra).
    exists (Z.to_nat (up (exp K))). intros n Hn.
    assert (In : exp K <= INR n).
    { apply Rle_trans with (INR (Z.to_nat (up (exp K)))); [|apply le_INR; lia].
      rewrite INR_IZR_INZ, Z2Nat.id by exact Z0. lra. }
    unfold R_dist. rewrite Rminus_0_r, Rabs_pos_eq by (left; apply tel_pos).
    pose proof (tel_inv n) as I. pose proof (tel_pos n) as T.
    assert (L : K <= ln (b + INR n)).
    { rewrite <- (ln_exp K). left. apply ln_increasing; [apply exp_pos|lra]. }
    assert (J : / eps <= a * (ln (b + INR n) - ln b)).
    { replace (/ eps) with (a * (/ a * / eps)) by (field; lra). apply Rmult_le_compat_l; [lra|]. unfold K in L. lra. }
    assert (M : / eps < / tel n) by lra.
    rewrite <- (Rinv_inv eps), <- (Rinv_inv (tel n)).
    apply Rinv_lt_contravar; [|exact M]. apply Rmult_lt_0_compat; apply Rinv_0_lt_compat; lra.
  Qed.

  Lemma tel_step v : a * rising b v / rising (a + b) (1 + v) = tel v - tel (S v).
  Proof.
    unfold tel. cbn [rising Nat.add]. pose proof (pos_INR v). assert (Hab : 0 < a + b) by lra.
    pose proof (rising_pos (a + b) v Hab). field. split; lra.
  Qed.

  Lemma tel_partial n : sum_f_R0 (fun v => a * rising b v / rising (a + b) (1 + v)) n = 1 - tel (S n).
  Proof.
    induction n as [|n IH].
    - cbn [sum_f_R0]. rewrite tel_step. unfold tel at 1; cbn. lra.
    - cbn [sum_f_R0]. rewrite IH, tel_step. ring.
  Qed.

  Lemma tel_sum : infinite_sum (fun v => a * rising b v / rising (a + b) (1 + v)) 1.
  Proof.
    intros eps He. destruct (tel_lim eps He) as [N0 HN]. exists N0. intros n Hn.
    rewrite tel_partial. specialize (HN (S n) ltac:(lia)). unfold R_dist in *.
    replace (1 - tel (S n) - 1) with (- (tel (S n) - 0)) by ring. now rewrite Rabs_Ropp.
  Qed.
End Telescope.

Lemma rising_plus x m n : rising x (m + n) = rising x m * rising (x + INR m) n.
Proof.
  induction n as [|n IH]; cbn [rising].
  - rewrite Nat.add_0_r. ring.
  - rewrite <- plus_n_Sm. cbn [rising]. rewrite IH, plus_INR. ring.
Qed.

(** The beta mass of all counts for a general number of failures. *)
Lemma beta_mass a b r : 0 < a -> 0 < b ->
  infinite_sum (fun v => rising a (S r) * rising b v / rising (a + b) (S r + v)) (rising a r / rising (a + b) r).
Proof.
  intros Ha Hb. pose proof (pos_INR r) as P.
  assert (Hab : 0 < a + b) by lra. pose proof (rising_pos _ r Hab) as Q.
  pose proof (tel_sum (a + INR r) b ltac:(lra) Hb) as T.
  apply is_series_Reals. apply is_series_Reals in T.
  remember (rising a r / rising (a + b) r) as c eqn:Ec.
  pose proof (is_series_scal (K:=R_AbsRing) (V:=R_NormedModule) c _ _ T) as T'.
  rewrite <- (Rmult_1_r c) at 1.
  eapply is_series_ext; [|exact T'].
  intro v. match goal with |- ?x = ?y => change (@eq R x y) end. rewrite Ec. unfold scal; cbn -[rising Nat.add]. unfold mult; cbn -[rising Nat.add].
  replace (S r + v)%nat with (r + (1 + v))%nat by lia. rewrite (rising_plus (a + b) r (1 + v)).
  replace (a + INR r + b) with (a + b + INR r) by ring. cbn [rising].
  assert (Hc : 0 < a + b + INR r) by lra. pose proof (rising_pos _ (1 + v) Hc). field. split; lra.
Qed.

Lemma infinite_sum_ext f g l : (forall n, f n = g n) -> infinite_sum f l -> infinite_sum g l.
Proof. intros E H. apply is_series_Reals. eapply is_series_ext; [exact E|]. now apply is_series_Reals. Qed.

Lemma rising_ratio_lt a b r : 0 < a -> 0 < b -> (0 < r)%nat -> rising a r / rising (a + b) r < 1.
Proof.
  intros Ha Hb Hr. assert (Hab : 0 < a + b) by lra.
  apply (Rmult_lt_reg_r (rising (a + b) r)); [now apply rising_pos|].
  replace (rising a r / rising (a + b) r * rising (a + b) r) with (rising a r)
    by (field; apply Rgt_not_eq; now apply rising_pos).
  rewrite Rmult_1_l. destruct r as [|r]; [lia|]. clear Hr.
  induction r as [|r IH].
  - cbn. lra.
  - change (rising a (S r) * (a + INR (S r)) < rising (a + b) (S r) * (a + b + INR (S r))).
    pose proof (pos_INR (S r)). pose proof (rising_pos a (S r) Ha).
    apply Rmult_le_0_lt_compat; lra || exact IH.
Qed.

(** ** The models *)
From Verif.model Require Import Base Num NumR Component BNB GP.
From Verif.spec Require Import GroupSpec.
From Verif.proof Require Import ClosedForm.

Lemma zsum_nonneg l : small_counts l -> (0 <= zsum l)%Z.
Proof.
  intros (_ & H & _). induction H as [|x l Hx Hl IH]; [cbn; lia|].
  change (0 <= x + zsum l)%Z. lia.
Qed.

Lemma gp_sums_to_one lg : lgamma_like lg -> forall dl (sh : gp_shared R) (l : list Z) g,
  0 < gp_alpha sh -> 0 < gp_inv_beta sh -> small_counts l ->
  c_filled (GP R (N:=NumR lg)) dl sh l = Ok g ->
  infinite_sum (fun v => exp (gp_score_value (N:=NumR lg) sh g (Z.of_nat v))) 1.
Proof.
  intros Hlg dl sh l g Ha Hb Hl Hg.
  pose proof (IZR_le _ _ (zsum_nonneg l Hl)) as Z. pose proof (pos_INR (length l)) as P.
  set (b := gp_inv_beta sh + INR (length l)).
  eapply infinite_sum_ext; [intro v; symmetry; exact (gp_closed lg Hlg dl sh l g v Ha Hb Hl Hg)|].
  cbv zeta. fold b. assert (B : 0 < b) by (unfold b; lra).
  replace (b / (1 + b)) with (1 - 1 / (1 + b)) by (field; lra).
  apply negbin_sum; [lra|]. split; [apply Rdiv_lt_0_compat; lra|].
  apply (Rmult_lt_reg_r (1 + b)); [lra|]. unfold Rdiv. rewrite Rmult_assoc, Rinv_l by lra. lra.
Qed.

Lemma bnb_total lg : lgamma_like lg -> forall dl (sh : bnb_shared R) (l : list Z) g (r : nat),
  0 < bnb_alpha sh -> 0 < bnb_beta sh -> bnb_r sh = Z.of_nat (S r) -> small_counts l ->
  c_filled (BNB R) dl sh l = Ok g ->
  let a := bnb_alpha sh + INR (S r) * INR (length l) in
  let b := bnb_beta sh + IZR (zsum l) in
  infinite_sum (fun v => exp (bnb_score_value (N:=NumR lg) sh g (Z.of_nat v))) (rising a r / rising (a + b) r).
Proof.
  intros Hlg dl sh l g r Ha Hb Hr Hl Hg a b.
  pose proof (IZR_le _ _ (zsum_nonneg l Hl)) as Z.
  eapply infinite_sum_ext; [intro v; symmetry; exact (bnb_closed lg Hlg dl sh l g v (S r) Ha Hb Hr Hl Hg)|].
  cbv zeta. fold a b. apply beta_mass.
  - unfold a. assert (0 <= INR (S r) * INR (length l)) by (apply Rmult_le_pos; apply pos_INR). lra.
  - unfold b. lra.
Qed.

Lemma bnb_one lg : lgamma_like lg -> forall dl (sh : bnb_shared R) (l : list Z) g,
  0 < bnb_alpha sh -> 0 < bnb_beta sh -> bnb_r sh = 1%Z -> small_counts l ->
  c_filled (BNB R) dl sh l = Ok g ->
  infinite_sum (fun v => exp (bnb_score_value (N:=NumR lg) sh g (Z.of_nat v))) 1.
Proof.
  intros Hlg dl sh l g Ha Hb Hr Hl Hg.
  pose proof (bnb_total lg Hlg dl sh l g 0 Ha Hb Hr Hl Hg) as H. cbn [rising] in H.
  now replace (1 / 1) with 1 in H by lra.
Qed.

Lemma bnb_short lg : lgamma_like lg -> forall dl (sh : bnb_shared R) (l : list Z) g (r : nat),
  0 < bnb_alpha sh -> 0 < bnb_beta sh -> bnb_r sh = Z.of_nat (S (S r)) -> small_counts l ->
  c_filled (BNB R) dl sh l = Ok g ->
  exists t, t < 1 /\ infinite_sum (fun v => exp (bnb_score_value (N:=NumR lg) sh g (Z.of_nat v))) t.
Proof.
  intros Hlg dl sh l g r Ha Hb Hr Hl Hg. eexists. split; [|exact (bnb_total lg Hlg dl sh l g (S r) Ha Hb Hr Hl Hg)].
  pose proof (IZR_le _ _ (zsum_nonneg l Hl)) as Z.
  apply rising_ratio_lt; [|lra|lia].
  assert (0 <= INR (S (S r)) * INR (length l)) by (apply Rmult_le_pos; apply pos_INR). lra.
Qed.

Lemma bnb_refute : exists (sh : bnb_shared R) (l : list BinNums.Z),
  0 < bnb_alpha sh /\ 0 < bnb_beta sh /\ bnb_r sh = 2%Z /\ small_counts l /\
  forall lg, lgamma_like lg -> forall dl, exists g, c_filled (BNB R) dl sh l = Ok g /\
    ~ infinite_sum (fun v => exp (bnb_score_value (N:=NumR lg) sh g (Z.of_nat v))) 1.
Proof.
  exists (mk_bnb_shared 1 1 2), []. cbn [bnb_alpha bnb_beta bnb_r].
  assert (S : small_counts []) by (split; [cbn; lia|split; [constructor|cbn; lia]]).
  repeat (split; [lra || reflexivity || exact S|]).
  intros lg Hlg dl. exists (c_init (BNB R) (mk_bnb_shared 1 1 2)). split; [reflexivity|]. intro H.
  destruct (bnb_short lg Hlg dl (mk_bnb_shared 1 1 2) [] _ 0 ltac:(cbn; lra) ltac:(cbn; lra) eq_refl S eq_refl) as (t & T & H2).
  pose proof (uniqueness_sum _ _ _ H H2). lra.
Qed.
