(** The continuous models' predictives and marginal likelihoods are densities. *)
From Coq Require Import Permutation Reals Lra Lia List ZArith.
From Coquelicot Require Import Coquelicot.
From Verif.model Require Import Base Num NumR Component NICH NIW LinR.
From Verif.spec Require Import GroupSpec GaussSpec NiwSpec DrawSpec StudentSpec DensitySpec.
From Verif.proof Require Import NICHProof ScoreProof NIWProof LinProof NIWScore SchurProof StudentInt MvStudentInt PiBound LnPi FloatRel.
Import ListNotations.
Local Open Scope R_scope.

(** ** NormalInverseChiSq *)
Section Nich.
  Variable lg : R -> R.
  Hypothesis HG : is_log_gamma lg.
  Variable sh : nich_shared R.
  Hypotheses (Hk : 0 < ni_kappa sh) (Hn : 0 < ni_nu sh) (Hs : 0 < ni_sigmasq sh).
  Notation c := (314159265358979 / 100000000000000).

  Lemma nich_value_student l x : let post := nich_plus_group (N:=NumR lg) sh (nich_stat l) in
    nich_score_value (N:=NumR lg) sh (nich_stat l) x =
    student_t lg (ni_nu post) (ni_mu post) (ni_kappa post / ((ni_kappa post + 1) * ni_sigmasq post)) x + ln (PI / c) / 2.
  Proof using Hk Hn Hs.
    intros post. pose proof (nich_post_sigmasq_pos lg sh l Hk Hn Hs) as Ps. fold post in Ps.
    assert (0 < ni_kappa post /\ 0 < ni_nu post) as (Pk & Pn).
    { unfold post. rewrite nich_post by assumption. cbn [ni_kappa ni_nu]. pose proof (pos_INR (length l)). lra. }
    unfold nich_score_value, nich_scorer_init, nich_scorer_eval. fold post. clearbody post. destruct post as [mu k s nu].
    cbn [ni_mu ni_kappa ni_sigmasq ni_nu nis_score nis_coeff nis_prec nis_mean] in *.
    unfold student_t, half, sqr, m_pif. cbn [nlit nadd nsub nmul ndiv nneg nlog nlgamma nlgamma_nu NumR].
    replace (1 / 1) with 1 by field. set (lam := k / ((k + 1) * s)).
    assert (0 < lam) as Pl by (apply Rdiv_lt_0_compat; [| apply Rmult_lt_0_compat]; lra).
    pose proof PI_RGT_0 as PP.
    replace (nu * (1 / 2) + 1 / 2) with (nu / 2 + / 2) by field. replace (nu * (1 / 2)) with (nu / 2) by field.
    replace ((nu + 1) / 2) with (nu / 2 + / 2) by field.
    replace (lam / nu * ((x - mu) * (x - mu))) with (lam * (x - mu) ^ 2 / nu) by (field; lra).
    assert (0 < c * nu) by (apply Rmult_lt_0_compat; lra). assert (0 < nu * PI) by (apply Rmult_lt_0_compat; lra).
    replace (lam / (c * nu)) with (lam / (nu * PI) * (PI / c)) by (field; lra).
    rewrite (ln_mult (lam / (nu * PI)) (PI / c)) by (apply Rdiv_lt_0_compat; lra). field.
  Qed.

  Lemma post_pos l : let post := nich_plus_group (N:=NumR lg) sh (nich_stat l) in
    0 < ni_nu post /\ 0 < ni_kappa post / ((ni_kappa post + 1) * ni_sigmasq post).
  Proof using Hk Hn Hs.
    intros post. pose proof (nich_post_sigmasq_pos lg sh l Hk Hn Hs) as Ps. fold post in Ps.
    assert (0 < ni_kappa post /\ 0 < ni_nu post) as (Pk & Pn).
    { unfold post. rewrite nich_post by assumption. cbn [ni_kappa ni_nu]. pose proof (pos_INR (length l)). lra. }
    split; [exact Pn |]. apply Rdiv_lt_0_compat; [| apply Rmult_lt_0_compat]; lra.
  Qed.

  Lemma nich_value_mass l : total_mass (fun x => exp (nich_score_value (N:=NumR lg) sh (nich_stat l) x)) (exp (ln (PI / c) / 2)).
  Proof using HG Hk Hn Hs.
    destruct (post_pos l) as (A & B). apply (total_mass_ext _ _ _ (fun x => eq_sym (f_equal exp (nich_value_student l x)))).
    now apply student_mass.
  Qed.

  Definition nich_drift : R := / 2 * (ln PI - 11447298858493991 / 10000000000000000).
  Lemma nich_data_mass n : forall k, total_mass_n n (fun l => exp (nich_score_data (N:=NumR lg) sh (nich_stat l) + k)) (exp (INR n * nich_drift + k)).
  Proof using HG Hk Hn Hs.
    induction n as [|n IH]; intros k; cbn [total_mass_n].
    - f_equal. f_equal. cbn [INR]. rewrite Rmult_0_l. exact (nich_sd_empty lg sh Hk Hn).
    - exists (fun l => exp (nich_score_data (N:=NumR lg) sh (nich_stat l) + (nich_drift + k))). split.
      + intros l _. destruct (post_pos l) as (A & B). eapply total_mass_ext.
        2:{ replace (nich_score_data (N:=NumR lg) sh (nich_stat l) + (nich_drift + k))
              with (ln (PI / c) / 2 - pi_gap + nich_score_data (N:=NumR lg) sh (nich_stat l) + k).
            - apply (student_mass lg _ (ni_mu (nich_plus_group (N:=NumR lg) sh (nich_stat l))) _ _ HG A B).
            - unfold nich_drift, pi_gap. pose proof PI_RGT_0. rewrite ln_div by lra. field. }
        intros x. cbn beta. f_equal. pose proof (nich_step lg sh l x Hk Hn Hs) as S1. rewrite (nich_value_student l x) in S1. lra.
      + replace (INR (S n) * nich_drift + k) with (INR n * nich_drift + (nich_drift + k)) by (rewrite S_INR; ring). apply IH.
  Qed.
End Nich.

(** ** NormalInverseWishart *)
Section Niw.
  Variable lg : R -> R.
  Hypothesis HG : is_log_gamma lg.
  Variables (d : nat) (m : nat -> R) (k : R) (p : nat -> nat -> R) (nu : R).
  Hypotheses (Hd : (0 < d)%nat) (Hk : 0 < k) (Hspd : spdf d p) (Hnu : INR d - 1 < nu).
  Notation sd := (sd_of lg d m k p nu).
  Notation logpi := (11447298858494002 / 10000000000000000).

  Lemma spdf_scale f h : 0 < h -> spdf d f -> spdf d (fun i j => h * f i j).
  Proof.
    intros H [S P]. split; [intros i j Hi Hj; now rewrite (S i j) |]. intros x Hx. rewrite quad_scale. apply Rmult_lt_0_compat; auto.
  Qed.

  Definition niw_drift : R := INR d / 2 * (ln PI - logpi).
  Lemma niw_value_mass l k0 : total_mass_n d (fun v => exp (sd (v :: l) + k0)) (exp (sd l + niw_drift + k0)).
  Proof using HG Hk Hspd Hnu.
    set (P := ppsi k m p (sx l) (sxx l) (INR (length l))). set (K := k + INR (length l)). set (N := nu + INR (length l)).
    pose proof (pos_INR (length l)) as Pl. assert (0 < K) as PK by (unfold K; lra). set (h := K / (K + 1)). assert (0 < h) as Ph by (apply Rdiv_lt_0_compat; lra).
    assert (spdf d P) as SP by (apply post_spd; assumption). set (D := det_R (mtab d P)). assert (0 < D) as PD by (now apply det_spd).
    set (q := (N + 1) / 2). set (k1 := sd l + k0 + lg q - lg (q - INR d / 2) - INR d / 2 * logpi + INR d / 2 * ln h - / 2 * ln D).
    assert (spdf d (fun i j => h * invf d P i j)) as SA by (apply spdf_scale; [exact Ph | now apply spdf_inv]).
    pose proof (mv_mass lg HG d (fun i j => h * invf d P i j) (pmu k m (sx l) (INR (length l))) q k1 SA ltac:(unfold q, N; lra)) as M.
    rewrite det_scale in M. set (B := det_R (mtab d (invf d P))) in *.
    assert (0 < B) as PB by (apply det_spd, spdf_inv, SP). assert (ln B = - ln D) as EB.
    { pose proof (det_invf SP) as E. fold B D in E. apply (f_equal ln) in E. rewrite ln_mult, ln_1 in E by assumption. lra. }
    assert (ln (h ^ d) = INR d * ln h) as EH.
    { clear - Ph. induction d as [|n IH]; [cbn; rewrite ln_1; ring |]. cbn [pow]. rewrite ln_mult, IH, S_INR by (try apply pow_lt; assumption). ring. }
    rewrite ln_mult, EB, EH in M by (try apply pow_lt; assumption).
    replace (sd l + niw_drift + k0) with (k1 + INR d / 2 * ln PI - lg q + lg (q - INR d / 2) - / 2 * (INR d * ln h + - ln D)) by (unfold k1, niw_drift; field).
    eapply total_mass_n_ext; [| exact M]. intros v Hv. cbn beta. f_equal. rewrite quad_scale.
    change (fun i => coord i v - pmu k m (sx l) (INR (length l)) i) with (dev m k l v). set (Q := quad d (invf d P) (dev m k l v)).
    assert (det_R (mtab d (ppsi k m p (sx (v :: l)) (sxx (v :: l)) (INR (length (v :: l))))) = D * (1 + h * Q)) as E.
    { rewrite (mtab_ext d _ (fun i j => P i j + h * (dev m k l v i * dev m k l v j))) by (intros; apply ppsi_cons; exact Hk).
      now apply det_update. }
    assert (0 < D * (1 + h * Q)) as PE by (rewrite <- E; apply det_spd, post_spd; assumption).
    assert (0 < 1 + h * Q) as P1 by (apply (Rmult_lt_reg_l D); [exact PD | lra]).
    unfold k1, sd_of. rewrite E. fold P D. rewrite (ln_mult D (1 + h * Q)) by assumption.
    cbn [length]. rewrite !S_INR. cbn [Nat.mul]. rewrite plus_INR.
    assert (ln h = ln K - ln (K + 1)) as Lh by (unfold h; apply ln_div; lra).
    assert (ln (k / (k + (INR (length l) + 1))) = ln k - ln (K + 1)) as L1.
    { rewrite ln_div by (unfold K in *; lra). unfold K. now replace (k + (INR (length l) + 1)) with (k + INR (length l) + 1) by lra. }
    assert (ln (k / (k + INR (length l))) = ln k - ln K) as L2 by (apply ln_div; unfold K in *; lra).
    rewrite Lh, L1, L2. pose proof (lmg_step lg d ((nu + INR (length l)) / 2)) as T.
    replace ((nu + INR (length l)) / 2 + 1 / 2) with q in T by (unfold q, N; field).
    replace ((nu + (INR (length l) + 1)) / 2) with q by (unfold q, N; field). unfold q, N in *. set (z := ln (1 + h * Q)). lra.
  Qed.

  Lemma niw_data_mass n : forall k0, total_mass_seq d n (fun l => exp (sd l + k0)) (exp (INR n * niw_drift + k0)).
  Proof using HG Hk Hspd Hnu.
    induction n as [|n IH]; intros k0; cbn [total_mass_seq].
    - f_equal. f_equal. cbn [INR]. rewrite Rmult_0_l. unfold sd_of. cbn [length Nat.mul INR]. rewrite !Rplus_0_r.
      rewrite (mtab_ext d (ppsi k m p (sx []) (sxx []) 0) p) by (intros i j _ _; apply (post_nil_psi m _ p); exact Hk).
      replace (k / k) with 1 by (field; lra). rewrite ln_1. lra.
    - exists (fun l => exp (sd l + (niw_drift + k0))). split.
      + intros l _ _. rewrite <- Rplus_assoc. apply niw_value_mass.
      + replace (INR (S n) * niw_drift + k0) with (INR n * niw_drift + (niw_drift + k0)) by (rewrite S_INR; ring). apply IH.
  Qed.
End Niw.

Lemma drift_small : Rabs (/ 2 * (ln PI - 11447298858494002 / 10000000000000000)) <= / 10 ^ 14 /\ Rabs nich_drift <= / 10 ^ 14.
Proof.
  pose proof ln_pi_14 as H. apply Rabs_le_between in H. cbn [pow] in H. unfold nich_drift. split; apply Rabs_le; cbn [pow]; split; lra.
Qed.
