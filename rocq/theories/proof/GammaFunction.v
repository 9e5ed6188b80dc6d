(** Euler's integral: it converges, satisfies the recurrence of the gamma function, and scales. *)
From Coq Require Import List Reals Lra Lia Psatz.
From Coquelicot Require Import Coquelicot.
From Verif.spec Require Import DrawSpec LgammaSpec.
From Verif.proof Require Import DirichletLaw.
Import ListNotations.
Local Open Scope R_scope.

Lemma rint_uniq (f : R -> R) a b (v : R) : is_RInt f a b v -> RInt f a b = v.
Proof. intros H. exact (is_RInt_unique (V := R_CompleteNormedModule) f a b v H). Qed.
Lemma chasles (f : R -> R) a b c : ex_RInt f a b -> ex_RInt f b c -> RInt f a b + RInt f b c = RInt f a c.
Proof. intros H1 H2. exact (RInt_Chasles (V := R_CompleteNormedModule) f a b c H1 H2). Qed.
Notation Gn n a := (G (lo n) (hi n) a).
Definition edge (y a : R) : R := Rpower y a * exp (- y).
Lemma edge_pos y a : 0 < edge y a.
Proof. apply Rmult_lt_0_compat; apply exp_pos. Qed.
Lemma w_succ a x : 0 < x -> gamma_weight (a + 1) x = x * gamma_weight a x.
Proof. intros H. rewrite w_mul by exact H. unfold gamma_weight. do 2 f_equal. ring. Qed.
Lemma wx_ex a x y : 0 < x -> x <= y -> ex_RInt (gamma_weight a) x y.
Proof. intros. now apply w_ex. Qed.

Lemma G_rec l h a : 0 < l -> l <= h -> G l h (a + 1) = a * G l h a + (edge l a - edge h a).
Proof.
  intros Hl Hlh.
  assert (is_RInt (fun x => gamma_weight a x * (a - x)) l h (edge h a - edge l a)) as H.
  { apply (is_RInt_derive (V := R_CompleteNormedModule) (fun y => Rpower y a * exp (- y))).
    - intros x Hx. rewrite Rmin_left, Rmax_right in Hx by lra. apply w_der. lra.
    - intros x Hx. rewrite Rmin_left, Rmax_right in Hx by lra.
      apply (continuous_mult (gamma_weight a) (fun x => a - x)); [apply w_cont; lra |].
      apply (ex_derive_continuous (fun x => a - x)). auto_derive. exact I. }
  apply rint_uniq in H.
  assert (RInt (fun x => gamma_weight a x * (a - x)) l h = a * G l h a + (-1) * G l h (a + 1)) as E.
  { unfold G. rewrite <- !rint_scal by (now apply wx_ex). rewrite <- rint_plus by (apply ex_scal; now apply wx_ex).
    apply rint_ext; [exact Hlh |]. intros x Hx. rewrite w_succ by lra. ring. }
  rewrite E in H. change (a * G l h a + -1 * G l h (a + 1) = edge h a - edge l a) in H. lra.
Qed.
Lemma edge_lim_hi a : is_lim_seq (fun n => edge (hi n) a) 0.
Proof. apply top_lim. Qed.
Lemma edge_lim_lo a : 0 < a -> is_lim_seq (fun n => edge (lo n) a) 0.
Proof. apply bot_lim. Qed.
(** what is bounded by a vanishing sequence vanishes relative to the integral *)
Lemma over_G a (u e : nat -> R) : is_lim_seq e 0 -> (forall n, (1 <= n)%nat -> 0 <= u n <= e n) -> is_lim_seq (fun n => u n / Gn n a) 0.
Proof.
  intros He Hu. pose proof (G_half a) as P.
  apply (is_lim_seq_le_le_loc (fun _ => 0) _ (fun n => / G (/2) 2 a * e n)).
  - exists 1%nat. intros n Hn. pose proof (Hu n Hn) as [H1 H2]. pose proof (G_gt n a Hn) as H3. pose proof (G_mono n a Hn) as H4. split.
    + apply Rmult_le_pos; [exact H1 |]. left. now apply Rinv_0_lt_compat.
    + unfold Rdiv. rewrite Rmult_comm. apply Rmult_le_compat; [left; now apply Rinv_0_lt_compat | exact H1 | now apply Rinv_le_contravar | exact H2].
  - apply is_lim_seq_const.
  - replace (Finite 0) with (Rbar_mult (/ G (/2) 2 a) (Finite 0)) by (cbn; f_equal; ring). now apply is_lim_seq_scal_l.
Qed.
Lemma edge_over_hi a b : is_lim_seq (fun n => edge (hi n) b / Gn n a) 0.
Proof. apply (over_G a _ (fun n => edge (hi n) b)); [apply edge_lim_hi |]. intros n _. pose proof (edge_pos (hi n) b). lra. Qed.
Lemma edge_over_lo a b : 0 < b -> is_lim_seq (fun n => edge (lo n) b / Gn n a) 0.
Proof. intros Hb. apply (over_G a _ (fun n => edge (lo n) b)); [now apply edge_lim_lo |]. intros n _. pose proof (edge_pos (lo n) b). lra. Qed.

Definition ratio_lim (a b r : R) : Prop := is_lim_seq (fun n => Gn n b / Gn n a) r.
Lemma ratio_refl a : ratio_lim a a 1.
Proof.
  apply (is_lim_seq_ext_loc (fun _ => 1)); [| apply is_lim_seq_const]. exists 1%nat. intros n Hn. pose proof (G_gt n a Hn). field. lra.
Qed.
Lemma ratio_succ a b r : 0 < b -> ratio_lim a b r -> ratio_lim a (b + 1) (b * r).
Proof.
  intros Hb H. unfold ratio_lim in *.
  apply (is_lim_seq_ext_loc (fun n => b * (Gn n b / Gn n a) + (edge (lo n) b / Gn n a - edge (hi n) b / Gn n a))).
  - exists 1%nat. intros n Hn. pose proof (G_gt n a Hn). rewrite (G_rec (lo n) (hi n) b (lo_pos n) (lo_hi n)). field. lra.
  - replace (Finite (b * r)) with (Finite (b * r + (0 - 0))) by (f_equal; ring).
    apply is_lim_seq_plus'; [exact (is_lim_seq_scal_l _ b r H) |]. apply is_lim_seq_minus'; [now apply edge_over_lo | apply edge_over_hi].
Qed.
Lemma ratio_rising a k : 0 < a -> ratio_lim a (a + INR k) (rising a k).
Proof.
  intros Ha. induction k as [|k IH]; cbn [rising].
  - cbn [INR]. rewrite Rplus_0_r. apply ratio_refl.
  - rewrite S_INR. replace (a + (INR k + 1)) with (a + INR k + 1) by ring. rewrite Rmult_comm.
    apply ratio_succ; [pose proof (pos_INR k); lra | exact IH].
Qed.

(** ** Scaling *)
Lemma strip b c y : 0 < b -> 1 <= c -> 0 < y -> 0 <= RInt (gamma_weight b) y (c * y) <= (c - 1) * Rpower c b * edge y b.
Proof.
  intros Hb Hc Hy. assert (y <= c * y) as Hle by nra. split.
  - apply RInt_ge_0; [exact Hle | now apply wx_ex |]. intros x _. left. apply w_pos.
  - pose proof (RInt_le (gamma_weight b) (fun _ => Rpower c b * edge y b / y) y (c * y) Hle (wx_ex b y (c * y) Hy Hle)
      (ex_RInt_const _ _ _)) as H.
    rewrite RInt_const in H. unfold scal in H. cbn in H. unfold mult in H. cbn in H.
    replace ((c - 1) * Rpower c b * edge y b) with ((c * y - y) * (Rpower c b * edge y b / y)) by (field; lra).
    apply H. intros x Hx.
    replace (gamma_weight b x) with (Rpower x b * exp (- x) / x) by (rewrite <- w_mul by lra; field; lra).
    unfold edge. rewrite <- Rmult_assoc, Rpower_mult_distr by lra.
    assert (Rpower x b <= Rpower (c * y) b) as E1 by (apply Rle_Rpower_l; lra).
    assert (exp (- x) <= exp (- y)) as E2 by (left; apply exp_increasing; lra).
    assert (/ x <= / y) as E3 by (apply Rinv_le_contravar; lra).
    assert (0 < Rpower x b) by apply exp_pos. assert (0 < exp (- x)) by apply exp_pos. assert (0 < / x) by (apply Rinv_0_lt_compat; lra).
    unfold Rdiv. apply Rmult_le_compat; [nra | lra | | exact E3]. apply Rmult_le_compat; lra.
Qed.
Lemma scaled_box b c l h : 0 < b -> 1 <= c -> 0 < l -> l <= h ->
  RInt (fun x => Rpower x (b - 1) * exp (- (c * x))) l h =
  / Rpower c b * (G l h b + (RInt (gamma_weight b) h (c * h) - RInt (gamma_weight b) l (c * l))).
Proof.
  intros Hb Hc Hl Hlh.
  assert (RInt (fun x => Rpower x (b - 1) * exp (- (c * x))) l h = / Rpower c b * RInt (fun x => c * gamma_weight b (c * x)) l h) as E1.
  { assert (forall x, l <= x <= h -> continuous (fun x => c * gamma_weight b (c * x)) x) as CX.
    { intros x Hx. apply (continuous_mult (fun _ => c) (fun x => gamma_weight b (c * x))); [apply continuous_const |].
      apply (continuous_comp (fun x => c * x) (gamma_weight b)).
      - apply (ex_derive_continuous (fun x => c * x)). auto_derive. exact I.
      - apply w_cont. nra. }
    rewrite <- rint_scal.
    - apply rint_ext; [exact Hlh |]. intros x Hx. unfold gamma_weight. rewrite <- Rpower_mult_distr by lra.
      replace (Rpower c b) with (Rpower c (b - 1) * c) by (rewrite <- (Rpower_1 c) at 2 by lra; rewrite <- Rpower_plus; f_equal; ring).
      assert (0 < Rpower c (b - 1)) by apply exp_pos. field. lra.
    - apply (ex_RInt_continuous (V := R_CompleteNormedModule)). intros x Hx. rewrite Rmin_left, Rmax_right in Hx by exact Hlh. now apply CX. }
  rewrite E1. f_equal.
  assert (RInt (fun x => c * gamma_weight b (c * x)) l h = RInt (gamma_weight b) (c * l) (c * h)) as E2.
  { assert (ex_RInt (gamma_weight b) (c * l + 0) (c * h + 0)) as EX by (rewrite !Rplus_0_r; apply wx_ex; nra).
    pose proof (RInt_comp_lin (V := R_CompleteNormedModule) (gamma_weight b) c 0 l h EX) as H. rewrite !Rplus_0_r in H. rewrite <- H.
    apply RInt_ext. intros x _. unfold scal. cbn. unfold mult. cbn. now rewrite Rplus_0_r. }
  rewrite E2. unfold G.
  pose proof (chasles (gamma_weight b) l (c * l) (c * h)) as C1.
  pose proof (chasles (gamma_weight b) l h (c * h)) as C2.
  specialize (C1 ltac:(apply wx_ex; nra) ltac:(apply wx_ex; nra)). specialize (C2 ltac:(apply wx_ex; nra) ltac:(apply wx_ex; nra)).
  lra.
Qed.
Lemma scaled_lim a b c r : 0 < b -> 1 <= c -> ratio_lim a b r ->
  is_lim_seq (fun n => RInt (fun x => Rpower x (b - 1) * exp (- (c * x))) (lo n) (hi n) / Gn n a) (r / Rpower c b).
Proof.
  intros Hb Hc H. assert (0 < Rpower c b) as PC by apply exp_pos.
  apply (is_lim_seq_ext_loc (fun n => / Rpower c b * (Gn n b / Gn n a +
     (RInt (gamma_weight b) (hi n) (c * hi n) / Gn n a - RInt (gamma_weight b) (lo n) (c * lo n) / Gn n a)))).
  - exists 1%nat. intros n Hn. pose proof (G_gt n a Hn). rewrite (scaled_box b c (lo n) (hi n) Hb Hc (lo_pos n) (lo_hi n)). field. lra.
  - replace (Finite (r / Rpower c b)) with (Rbar_mult (/ Rpower c b) (Finite (r + (0 - 0)))) by (cbn; f_equal; field; lra).
    apply is_lim_seq_scal_l. apply is_lim_seq_plus'; [exact H |].
    assert (forall e, is_lim_seq e 0 -> is_lim_seq (fun n => (c - 1) * Rpower c b * e n) 0) as Z.
    { intros e He. replace (Finite 0) with (Rbar_mult ((c - 1) * Rpower c b) (Finite 0)) by (cbn; f_equal; ring). now apply is_lim_seq_scal_l. }
    apply is_lim_seq_minus'.
    + apply (over_G a _ (fun n => (c - 1) * Rpower c b * edge (hi n) b)); [apply Z, edge_lim_hi |].
      intros n _. apply strip; [exact Hb | exact Hc |]. pose proof (lo_pos n). pose proof (lo_hi n). lra.
    + apply (over_G a _ (fun n => (c - 1) * Rpower c b * edge (lo n) b)); [now apply Z, edge_lim_lo |].
      intros n _. apply strip; [exact Hb | exact Hc | apply lo_pos].
Qed.

(** ** Convergence *)
Lemma G_incr n a : Gn n a <= Gn (S n) a.
Proof.
  unfold G. assert (lo (S n) <= lo n) as H1 by (unfold lo; apply Rinv_le_contravar; [apply lt_0_INR; lia | apply le_INR; lia]).
  assert (hi n <= hi (S n)) as H2 by (unfold hi; apply le_INR; lia). pose proof (lo_pos (S n)) as P. pose proof (lo_pos n) as P'. pose proof (lo_hi n) as LH.
  pose proof (chasles (gamma_weight a) (lo (S n)) (lo n) (hi (S n))) as C1.
  pose proof (chasles (gamma_weight a) (lo n) (hi n) (hi (S n))) as C2.
  specialize (C1 ltac:(apply wx_ex; lra) ltac:(apply wx_ex; lra)). specialize (C2 ltac:(apply wx_ex; lra) ltac:(apply wx_ex; lra)).
  assert (forall x y, 0 < x -> x <= y -> 0 <= RInt (gamma_weight a) x y) as PX by (intros; now apply G_pos).
  pose proof (PX (lo (S n)) (lo n) P H1). pose proof (PX (hi n) (hi (S n)) ltac:(lra) H2). lra.
Qed.
Lemma ln_le x : 0 < x -> ln x <= x - 1.
Proof.
  intros H. rewrite <- (ln_exp (x - 1)). destruct (Req_dec x 1) as [->|N]; [rewrite Rminus_diag_eq, exp_0 by reflexivity; lra |].
  left. apply ln_increasing; [exact H |]. pose proof (exp_ineq1 (x - 1)). lra.
Qed.
Lemma w_tail a x : 0 < a -> 1 <= x -> gamma_weight a x <= exp ((a + 1) * ln (a + 1)) * / (x * x).
Proof.
  intros Ha Hx. unfold gamma_weight, Rpower. rewrite <- exp_plus.
  replace (/ (x * x)) with (exp (- (2 * ln x))).
  - rewrite <- exp_plus. assert ((a - 1) * ln x + - x <= (a + 1) * ln (a + 1) + - (2 * ln x)) as [H | ->]; [| left; now apply exp_increasing | right; reflexivity].
    pose proof (ln_le (x / (a + 1)) ltac:(apply Rdiv_lt_0_compat; lra)) as H. unfold Rdiv in H.
    rewrite ln_mult, ln_Rinv in H by (try lra; apply Rinv_0_lt_compat; lra).
    assert ((a + 1) * (ln x + - ln (a + 1)) <= (a + 1) * (x * / (a + 1) - 1)) as H2 by (apply Rmult_le_compat_l; lra).
    replace ((a + 1) * (x * / (a + 1) - 1)) with (x - (a + 1)) in H2 by (field; lra). lra.
  - rewrite exp_Ropp. f_equal. replace (2 * ln x) with (ln x + ln x) by ring. rewrite exp_plus, exp_ln by lra. reflexivity.
Qed.
Lemma int_inv2 h : 1 <= h -> is_RInt (fun x => / (x * x)) 1 h (1 - / h).
Proof.
  intros H. replace (1 - / h) with (minus (- / h) (- / 1)) by (unfold minus, plus, opp; cbn; field; lra).
  apply (is_RInt_derive (V := R_CompleteNormedModule) (fun x => - / x)).
  - intros x Hx. rewrite Rmin_left, Rmax_right in Hx by lra. auto_derive; [lra |]. field. lra.
  - intros x Hx. rewrite Rmin_left, Rmax_right in Hx by lra. apply (ex_derive_continuous (fun x => / (x * x))). auto_derive. nra.
Qed.
Lemma int_pow a l : 0 < a -> 0 < l <= 1 -> is_RInt (fun x => Rpower x (a - 1)) l 1 ((1 - Rpower l a) / a).
Proof.
  intros Ha Hl. replace ((1 - Rpower l a) / a) with (minus (Rpower 1 a / a) (Rpower l a / a)).
  2:{ unfold minus, plus, opp. cbn. unfold Rpower at 1. rewrite ln_1, Rmult_0_r, exp_0. field. lra. }
  apply (is_RInt_derive (V := R_CompleteNormedModule) (fun x => Rpower x a / a)).
  - intros x Hx. rewrite Rmin_left, Rmax_right in Hx by lra. unfold Rpower. auto_derive; [lra |].
    replace (exp ((a - 1) * ln x)) with (exp (a * ln x) * / x).
    + field. lra.
    + replace ((a - 1) * ln x) with (a * ln x + - ln x) by ring. rewrite exp_plus, exp_Ropp, exp_ln by lra. reflexivity.
  - intros x Hx. rewrite Rmin_left, Rmax_right in Hx by lra. apply (ex_derive_continuous (fun x => Rpower x (a - 1))). unfold Rpower. auto_derive. lra.
Qed.
Lemma G_bounded n a : 0 < a -> Gn n a <= / a + exp ((a + 1) * ln (a + 1)).
Proof.
  intros Ha. unfold G. pose proof (lo_pos n) as P.
  assert (lo n <= 1 /\ 1 <= hi n) as [L1 H1].
  { assert (1 <= hi n) as H by (unfold hi; rewrite S_INR; pose proof (pos_INR n); lra). split; [| exact H].
    unfold lo. fold (hi n). rewrite <- Rinv_1. apply Rinv_le_contravar; lra. }
  pose proof (chasles (gamma_weight a) (lo n) 1 (hi n) ltac:(apply wx_ex; lra) ltac:(apply wx_ex; lra)) as C1.
  rewrite <- C1. apply Rplus_le_compat.
  - pose proof (int_pow a (lo n) Ha ltac:(lra)) as I1. pose proof (rint_uniq _ _ _ _ I1) as I2.
    apply Rle_trans with (RInt (fun x => Rpower x (a - 1)) (lo n) 1).
    + apply RInt_le; [exact L1 | apply wx_ex; lra | eexists; exact I1 |]. intros x Hx. unfold gamma_weight.
      rewrite <- (Rmult_1_r (Rpower x (a - 1))) at 2. apply Rmult_le_compat_l; [left; apply exp_pos |].
      rewrite <- exp_0. left. apply exp_increasing. lra.
    + rewrite I2. assert (0 < Rpower (lo n) a) by apply exp_pos. assert (0 < / a) by (now apply Rinv_0_lt_compat). unfold Rdiv. nra.
  - pose proof (int_inv2 (hi n) H1) as I1. set (K := exp ((a + 1) * ln (a + 1))).
    assert (ex_RInt (fun x => / (x * x)) 1 (hi n)) as EX by (eexists; exact I1).
    apply rint_uniq in I1. apply Rle_trans with (RInt (fun x => K * / (x * x)) 1 (hi n)).
    + apply RInt_le; [exact H1 | apply wx_ex; lra | now apply ex_scal |]. intros x Hx. apply w_tail; lra.
    + rewrite rint_scal by exact EX. rewrite I1. assert (0 < K) by apply exp_pos.
      assert (0 < / hi n) by (apply Rinv_0_lt_compat; lra). nra.
Qed.
Lemma G_converges a : 0 < a -> exists L, 0 < L /\ is_lim_seq (fun n => Gn n a) L.
Proof.
  intros Ha. destruct (ex_finite_lim_seq_incr (fun n => Gn n a) (/ a + exp ((a + 1) * ln (a + 1)))) as [L HL].
  - intros n. apply G_incr.
  - intros n. now apply G_bounded.
  - exists L. split; [| exact HL]. apply Rlt_le_trans with (Gn 1%nat a); [now apply G_gt |].
    pose proof (is_lim_seq_incr_compare (fun n => Gn n a) L HL (fun n => G_incr n a) 1%nat) as H. exact H.
Qed.

Definition ln_gamma (a : R) : R := ln (real (Lim_seq (fun n => Gn n a))).
Theorem ln_gamma_is : is_log_gamma ln_gamma.
Proof.
  intros a Ha. destruct (G_converges a Ha) as (L & PL & HL). unfold ln_gamma. rewrite (is_lim_seq_unique _ _ HL). cbn [real].
  rewrite exp_ln by exact PL. exact HL.
Qed.
Theorem log_gamma_like lg : is_log_gamma lg -> lgamma_like lg.
Proof.
  intros H. split.
  - pose proof (H 1 ltac:(lra)) as H1.
    assert (is_lim_seq (fun n => RInt (gamma_weight 1) (/ INR (S n)) (INR (S n))) 1) as H2.
    { apply (is_lim_seq_ext (fun n => exp (- lo n) - edge (hi n) 0)).
      - intros n. change (/ INR (S n)) with (lo n). change (INR (S n)) with (hi n).
        pose proof (G_rec (lo n) (hi n) 0 (lo_pos n) (lo_hi n)) as E. rewrite Rplus_0_l, Rmult_0_l, Rplus_0_l in E. unfold G in E.
        rewrite E. unfold edge at 2. rewrite Rpower_O by apply lo_pos. ring.
      - replace (Finite 1) with (Finite (1 - 0)) by (f_equal; ring). apply is_lim_seq_minus'; [| apply edge_lim_hi].
        replace 1 with (exp (- 0)) by (rewrite Ropp_0; apply exp_0).
        apply (is_lim_seq_continuous (fun x => exp (- x)) lo 0).
        + apply continuity_pt_filterlim. apply (ex_derive_continuous (fun x => exp (- x))). auto_derive. exact I.
        + apply (is_lim_seq_ext (fun n => / hi n)); [reflexivity |].
          replace (Finite 0) with (Rbar_inv p_infty) by reflexivity. apply is_lim_seq_inv; [apply hi_lim | discriminate]. }
    apply is_lim_seq_unique in H1. apply is_lim_seq_unique in H2. rewrite H1 in H2. apply (f_equal real) in H2. cbn [real] in H2.
    rewrite <- (ln_exp (lg 1)), H2. apply ln_1.
  - intros a Ha. pose proof (H a Ha) as H1. pose proof (H (a + 1) ltac:(lra)) as H2.
    assert (is_lim_seq (fun n => RInt (gamma_weight (a + 1)) (/ INR (S n)) (INR (S n))) (a * exp (lg a))) as H3.
    { apply (is_lim_seq_ext (fun n => a * Gn n a + (edge (lo n) a - edge (hi n) a))).
      - intros n. symmetry. exact (G_rec (lo n) (hi n) a (lo_pos n) (lo_hi n)).
      - replace (Finite (a * exp (lg a))) with (Finite (a * exp (lg a) + (0 - 0))) by (f_equal; ring).
        apply is_lim_seq_plus'; [exact (is_lim_seq_scal_l _ a (exp (lg a)) H1) |].
        apply is_lim_seq_minus'; [now apply edge_lim_lo | apply edge_lim_hi]. }
    apply is_lim_seq_unique in H2. apply is_lim_seq_unique in H3. rewrite H2 in H3. apply (f_equal real) in H3. cbn [real] in H3.
    rewrite <- (ln_exp (lg (a + 1))), H3, ln_mult, ln_exp by (try exact Ha; apply exp_pos). reflexivity.
Qed.
Lemma ratio_gamma lg a b : is_log_gamma lg -> 0 < a -> 0 < b -> ratio_lim a b (exp (lg b - lg a)).
Proof.
  intros H Ha Hb. unfold ratio_lim. replace (exp (lg b - lg a)) with (exp (lg b) / exp (lg a)) by (unfold Rminus; rewrite exp_plus, exp_Ropp; reflexivity).
  apply is_lim_seq_div'; [exact (H b Hb) | exact (H a Ha) |]. pose proof (exp_pos (lg a)). lra.
Qed.
