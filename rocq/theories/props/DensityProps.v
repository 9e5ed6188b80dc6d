(** C93: the predictives of NormalInverseChiSq and NormalInverseWishart are probability densities, and so are their
    marginal likelihoods over data sets of every size, in exact arithmetic ([NumR lg], [lg] the log-Gamma function).
    The mass is 1 up to the library's literals for pi and ln pi: its logarithm is below 1e-14 per number scored. *)
From Coq Require Import Reals Lra Lia List ZArith.
From Coquelicot Require Import Coquelicot.
From Verif.model Require Import Base Num NumR Component NICH NIW LinR.
From Verif.spec Require Import GroupSpec GaussSpec NiwSpec DrawSpec StudentSpec DensitySpec.
From Verif.proof Require Import NICHProof ScoreProof NIWProof LinProof NIWScore StudentInt MvStudentInt PiBound LnPi FloatRel DensityProof.
From Verif.props Require Import NiwProps.
Import ListNotations.
Local Open Scope R_scope.

(** A function has at most one mass. *)
Theorem C93_mass_unique : forall f m m', total_mass f m -> total_mass f m' -> m = m'.
Proof.
  intros f m m' H K. apply cond_eq. intros eps P. destruct (H (eps / 2) ltac:(lra)) as [T HT]. destruct (K (eps / 2) ltac:(lra)) as [U HU].
  set (V := Rmax T U). pose proof (Rmax_l T U) as A. pose proof (Rmax_r T U) as B. fold V in A, B.
  destruct (HT (- V) V ltac:(lra) A) as [_ X]. destruct (HU (- V) V ltac:(lra) B) as [_ Y].
  apply Rabs_def2 in X. apply Rabs_def2 in Y. apply Rabs_def1; lra.
Qed.
Print Assumptions C93_mass_unique.

(** Student's t with any parameters. *)
Theorem C93_student_t : forall lg nu mu lambda, is_log_gamma lg -> 0 < nu -> 0 < lambda ->
  total_mass (fun x => exp (student_t lg nu mu lambda x)) 1.
Proof.
  intros lg nu mu lambda HG Hn Hl. rewrite <- exp_0. eapply total_mass_ext; [| exact (student_mass lg nu mu lambda 0 HG Hn Hl)].
  intros x. cbn beta. now rewrite Rplus_0_r.
Qed.
Print Assumptions C93_student_t.

(** NormalInverseChiSq, after any data. *)
Theorem C93_nich_predictive : forall lg dl (sh : nich_shared R) (l : list R), is_log_gamma lg ->
  0 < ni_kappa sh -> 0 < ni_nu sh -> 0 < ni_sigmasq sh -> short l ->
  exists g m, c_filled (NICH R (N:=NumR lg)) dl sh l = Ok g /\
    total_mass (fun x => exp (nich_score_value (N:=NumR lg) sh g x)) m /\ 0 < m /\ Rabs (ln m) <= / 10 ^ 14.
Proof.
  intros lg dl sh l HG Hk Hn Hs Hl. exists (nich_stat l), (exp (ln (PI / (314159265358979 / 100000000000000)) / 2)).
  split; [now apply nich_filled |]. split; [now apply nich_value_mass |]. split; [apply exp_pos |]. rewrite ln_exp.
  set (c := 314159265358979 / 100000000000000). assert (3 < c) as Pc by (unfold c; lra). pose proof pi_15 as [L U]. fold c in L.
  assert (1 <= PI / c) as G1 by (apply Rmult_le_reg_r with c; [lra |]; unfold Rdiv; rewrite Rmult_assoc, Rinv_l; lra).
  assert (0 <= ln (PI / c)) by (rewrite <- ln_1; apply ln_le'; lra). rewrite Rabs_pos_eq by lra.
  assert (ln (PI / c) <= PI / c - 1) as G2.
  { rewrite <- (ln_exp (PI / c - 1)). apply ln_le'; [lra |]. pose proof (exp_ineq1_le (PI / c - 1)). lra. }
  assert (PI / c <= 1 + / 10 ^ 14) as G3.
  { apply Rmult_le_reg_r with c; [lra |]. unfold Rdiv. rewrite Rmult_assoc, Rinv_l, Rmult_1_r by lra. eapply Rle_trans; [exact U |]. unfold c. cbn [pow]. lra. }
  lra.
Qed.
Print Assumptions C93_nich_predictive.

(** score_data over all data sets of n numbers. *)
Theorem C93_nich_marginal : forall lg dl (sh : nich_shared R) n, is_log_gamma lg ->
  0 < ni_kappa sh -> 0 < ni_nu sh -> 0 < ni_sigmasq sh -> (Z.of_nat n <= 2147483647)%Z ->
  exists f m, (forall l, length l = n -> exists g, c_filled (NICH R (N:=NumR lg)) dl sh l = Ok g /\ nich_score_data (N:=NumR lg) sh g = f l) /\
    total_mass_n n (fun l => exp (f l)) m /\ 0 < m /\ Rabs (ln m) <= INR n / 10 ^ 14.
Proof.
  intros lg dl sh n HG Hk Hn Hs Hl. exists (fun l => nich_score_data (N:=NumR lg) sh (nich_stat l)), (exp (INR n * nich_drift + 0)). split; [| split; [| split]].
  - intros l L. exists (nich_stat l). split; [| reflexivity]. apply nich_filled. unfold short. lia.
  - eapply total_mass_n_ext; [| exact (nich_data_mass lg HG sh Hk Hn Hs n 0)]. intros l _. cbn beta. now rewrite Rplus_0_r.
  - apply exp_pos.
  - rewrite ln_exp, Rplus_0_r, Rabs_mult, Rabs_pos_eq by apply pos_INR. apply Rmult_le_compat_l; [apply pos_INR | apply drift_small].
Qed.
Print Assumptions C93_nich_marginal.

Lemma drift_n d : Rabs (niw_drift d) <= INR d / 10 ^ 14.
Proof.
  unfold niw_drift. replace (INR d / 2 * (ln PI - 11447298858494002 / 10000000000000000)) with (INR d * (/ 2 * (ln PI - 11447298858494002 / 10000000000000000))) by field.
  rewrite Rabs_mult, Rabs_pos_eq by apply pos_INR. apply Rmult_le_compat_l; [apply pos_INR | apply drift_small].
Qed.

(** NormalInverseWishart, in every dimension, after any data. *)
Theorem C93_niw_predictive : forall lg dl (sh : niw_shared R) (d : nat) l, is_log_gamma lg ->
  (0 < d)%nat -> length (nw_mu sh) = d -> square d (nw_psi sh) ->
  spd d (nw_psi sh) -> 0 < nw_kappa sh -> INR d - 1 < nw_nu sh -> few_vectors d l ->
  exists g f m, c_filled (NIW R (N:=NumR lg)) dl sh l = Ok g /\
    (forall v, length v = d -> niw_score_value (N:=NumR lg) det_R inv_R dl sh g v = Ok (f v)) /\
    total_mass_n d (fun v => exp (f v)) m /\ 0 < m /\ Rabs (ln m) <= INR d / 10 ^ 14.
Proof.
  intros lg dl sh d l HG Hd Hmu Hpsi Hs Hk Hnu Hl. set (sd := sd_of lg d (fun i => coord i (nw_mu sh)) (nw_kappa sh) (entry (nw_psi sh)) (nw_nu sh)).
  exists (niw_stat d l), (fun v => sd (v :: l) - sd l), (exp (niw_drift d)). split; [apply niw_filled; [exact Hmu | apply Hl] |]. split; [| split; [| split]].
  - intros v Hv. apply niw_step; assumption.
  - replace (niw_drift d) with (sd l + niw_drift d + - sd l) by ring. unfold Rminus. apply niw_value_mass; assumption.
  - apply exp_pos.
  - rewrite ln_exp. apply drift_n.
Qed.
Print Assumptions C93_niw_predictive.

(** score_data over all data sets of n vectors. *)
Theorem C93_niw_marginal : forall lg dl (sh : niw_shared R) (d n : nat), is_log_gamma lg ->
  (0 < d)%nat -> length (nw_mu sh) = d -> square d (nw_psi sh) ->
  spd d (nw_psi sh) -> 0 < nw_kappa sh -> INR d - 1 < nw_nu sh ->
  (Z.of_nat n <= 2147483647)%Z -> (Z.of_nat n * Z.of_nat d < 4294967296)%Z ->
  exists f m, (forall l, length l = n -> List.Forall (fun v => length v = d) l -> exists g, c_filled (NIW R (N:=NumR lg)) dl sh l = Ok g /\
      niw_score_data (N:=NumR lg) det_R dl sh g = Ok (f l)) /\
    total_mass_seq d n (fun l => exp (f l)) m /\ 0 < m /\ Rabs (ln m) <= INR (n * d) / 10 ^ 14.
Proof.
  intros lg dl sh d n HG Hd Hmu Hpsi Hs Hk Hnu Hn Hnd. set (sd := sd_of lg d (fun i => coord i (nw_mu sh)) (nw_kappa sh) (entry (nw_psi sh)) (nw_nu sh)).
  exists (fun l => sd l + 0), (exp (INR n * niw_drift d + 0)). split; [| split; [| split]].
  - intros l L F. assert (few_vectors d l) as V by (split; [split; [unfold short; lia | exact F] | rewrite L; exact Hnd]).
    exists (niw_stat d l). split; [apply niw_filled; [exact Hmu | apply V] |]. rewrite Rplus_0_r. apply niw_sd_eq; assumption.
  - apply niw_data_mass; assumption.
  - apply exp_pos.
  - rewrite ln_exp, Rplus_0_r, mult_INR, Rabs_mult, Rabs_pos_eq by apply pos_INR. pose proof (drift_n d). unfold Rdiv in *. rewrite Rmult_assoc.
    apply Rmult_le_compat_l; [apply pos_INR | assumption].
Qed.
Print Assumptions C93_niw_marginal.

(** Parameters that meet the hypotheses: three data with mean 1, and the two-dimensional case of C67. *)
Example C93_nonvacuous : let sh := mk_nich_shared 0 1 2 (/ 2) in
  0 < ni_kappa sh /\ 0 < ni_nu sh /\ 0 < ni_sigmasq sh /\ short [1; 0; 2] /\
  let sh2 := mk_niw_shared [1; 0] 2 [[2; 1]; [1; 3]] 4 in
  (0 < 2)%nat /\ length (nw_mu sh2) = 2%nat /\ square 2 (nw_psi sh2) /\ 0 < nw_kappa sh2 /\
  spd 2 (nw_psi sh2) /\ INR 2 - 1 < nw_nu sh2 /\ few_vectors 2 [[1; 1]; [0; -4]; [1; 1]].
Proof.
  cbn zeta. cbn [ni_kappa ni_nu ni_sigmasq]. split; [lra |]. split; [lra |]. split; [lra |]. split; [unfold short; cbn; lia |]. exact C67_nonvacuous.
Qed.
(** A constant function has no mass: the definition asks for convergence. *)
Example C93_constant_has_none : forall m, total_mass (fun _ => 1) m -> False.
Proof.
  intros m H. destruct (H 1 Rlt_0_1) as [T HT]. set (V := Rmax (Rmax T 0) (Rabs m + 2)).
  pose proof (Rmax_l (Rmax T 0) (Rabs m + 2)) as A. pose proof (Rmax_r (Rmax T 0) (Rabs m + 2)) as B. fold V in A, B. pose proof (Rmax_l T 0). pose proof (Rmax_r T 0).
  destruct (HT (- V) V ltac:(lra) ltac:(lra)) as [_ X]. rewrite RInt_const in X. unfold scal in X. cbn in X. unfold mult in X. cbn in X.
  pose proof (Rle_abs m). apply Rabs_def2 in X. lra.
Qed.
