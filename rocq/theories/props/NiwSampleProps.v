(** Properties C73, C74, C75: multivariate normal, Wishart and normal-inverse-Wishart samplers. *)
From Coq Require Import List Reals Lra Lia.
From Verif.model Require Import Base Num NumR Component NIW LinR NIWSample.
From Verif.spec Require Import GroupSpec GaussSpec NiwSpec NormalSpec.
From Verif.proof Require Import NIWProof NIWScore NIWSampleProof.
Import ListNotations.
Local Open Scope R_scope.

(** C73: for every positive definite covariance matrix the draw succeeds and has mean mu and
    covariance sigma; a symmetric matrix that is not positive definite is reported. *)
Theorem C73_multivariate_normal_law : forall lg d mu sigma, length mu = d -> square d sigma -> spd d sigma ->
  normal_law d (fun i => coord i mu) (entry sigma) (fun z x => sample_multivariate_normal (N:=NumR lg) mu sigma z = Ok x).
Proof. exact mvn_law. Qed.
Print Assumptions C73_multivariate_normal_law.

Theorem C73_rejects_indefinite : forall lg d mu sigma z, length mu = d -> square d sigma -> length z = d ->
  (forall i j, (i < d)%nat -> (j < d)%nat -> entry sigma i j = entry sigma j i) -> ~ spd d sigma ->
  sample_multivariate_normal (N:=NumR lg) mu sigma z = Fail.
Proof. exact mvn_rejects. Qed.
Print Assumptions C73_rejects_indefinite.

(** Any dimension mismatch is reported, in any arithmetic. *)
Theorem C73_rejects_mismatch : forall (F : Set) (N : Num F) (mu : list F) (sigma : list (list F)) z,
  length mu <> length sigma \/ (exists row rest, sigma = row :: rest /\ length row <> length sigma) ->
  sample_multivariate_normal mu sigma z = Fail.
Proof.
  intros F N mu sigma z H. unfold sample_multivariate_normal, dassert.
  destruct (m_square sigma) eqn:Em; [|reflexivity]. cbn [obind].
  destruct (Nat.eqb_spec (length mu) (length sigma)) as [El|]; [|reflexivity]. exfalso.
  destruct H as [H|(row & rest & -> & H)]; [contradiction|]. apply H. now apply Nat.eqb_eq.
Qed.
Print Assumptions C73_rejects_mismatch.

(** The matrix [[2, 1], [1, 3]] is positive definite, [[1, 2], [2, 1]] is not. *)
Definition ex_sigma : list (list R) := [[2; 1]; [1; 3]].
Definition ex_indefinite : list (list R) := [[1; 2]; [2; 1]].
Lemma ex_sigma_spd : square 2 ex_sigma /\ spd 2 ex_sigma.
Proof.
  split; [split; [reflexivity|repeat constructor]|]. split.
  - intros i j Hi Hj. destruct i as [|[|i]]; [| |lia]; destruct j as [|[|j]]; try lia; reflexivity.
  - intros x (i & Hi & Hx). unfold quad, entry, coord, ex_sigma. cbn.
    pose proof (Rle_0_sqr (x 0%nat + x 1%nat)) as A. pose proof (Rle_0_sqr (x 0%nat)) as B. pose proof (Rle_0_sqr (x 1%nat)) as D.
    destruct i as [|[|i]]; [| |lia]; pose proof (Rlt_0_sqr _ Hx); unfold Rsqr in *; lra.
Qed.
Example C73_nonvacuous : length [1; -1] = 2%nat /\ square 2 ex_sigma /\ spd 2 ex_sigma /\
  square 2 ex_indefinite /\ (forall i j, (i < 2)%nat -> (j < 2)%nat -> entry ex_indefinite i j = entry ex_indefinite j i) /\ ~ spd 2 ex_indefinite.
Proof.
  split; [reflexivity|]. split; [apply ex_sigma_spd|]. split; [apply ex_sigma_spd|].
  split; [split; [reflexivity|repeat constructor]|]. split.
  - intros i j Hi Hj. destruct i as [|[|i]]; [| |lia]; destruct j as [|[|j]]; try lia; reflexivity.
  - intros [_ P]. specialize (P (fun i => match i with O => 1 | _ => -1 end)).
    assert (H : 0 < quad 2 (entry ex_indefinite) (fun i => match i with O => 1 | _ => -1 end)) by (apply P; exists O; split; [lia|lra]).
    unfold quad, entry, coord, ex_indefinite in H. cbn in H. lra.
Qed.

(** C74: whatever positive chi-squared numbers and whatever normal numbers are drawn, a Wishart
    draw with nu > d - 1 is a symmetric positive definite matrix, made by Bartlett's
    construction with nu - i degrees of freedom at index i ... *)
Theorem C74_wishart_draw_valid : forall lg chi norm nu d scale,
  square d scale -> spd d scale -> INR d - 1 < nu -> (forall i a, 0 < a -> 0 < chi i a) ->
  exists W, sample_wishart (N:=NumR lg) chi norm nu scale = Ok W /\ square d W /\ spd d W /\
    bartlett_law d (entry scale) (fun i => chi i (nu - INR i)) norm (entry W).
Proof. exact wishart_law. Qed.
Print Assumptions C74_wishart_draw_valid.

(** ... and an inverse Wishart draw is the inverse of a Wishart draw whose scale is the
    inverse of psi. *)
Theorem C74_inverse_wishart_draw_valid : forall lg chi norm nu d psi,
  square d psi -> spd d psi -> INR d - 1 < nu -> (forall i a, 0 < a -> 0 < chi i a) ->
  exists W, sample_inverse_wishart (N:=NumR lg) inv_R chi norm nu psi = Ok W /\ square d W /\ spd d W /\
    bartlett_law d (entry (inv_R psi)) (fun i => chi i (nu - INR i)) norm (entry (inv_R W)).
Proof. exact iwishart_law. Qed.
Print Assumptions C74_inverse_wishart_draw_valid.

Example C74_nonvacuous : square 2 ex_sigma /\ spd 2 ex_sigma /\ INR 2 - 1 < 3 / 2 /\ (forall (i : nat) a, 0 < a -> 0 < (fun (_ : nat) a => a / 3) i a).
Proof. split; [apply ex_sigma_spd|]. split; [apply ex_sigma_spd|]. split; [cbn; lra|]. intros i a H. lra. Qed.

(** C75, first half: for every data set and every draw, Sampler::init succeeds; with Sigma the
    inverse-Wishart draw of the posterior, the sampled mean is normal with mean mu_n and
    covariance Sigma / kappa_n.  Then every Sampler::eval succeeds.  Missing: the values should
    have covariance Sigma around the mean; what the code draws has covariance Sigma / kappa_n. *)
Theorem C75_niw_sampler_partial : forall lg dl (sh : niw_shared R) d l chi norm,
  (0 < d)%nat -> length (nw_mu sh) = d -> square d (nw_psi sh) -> 0 < nw_kappa sh -> spd d (nw_psi sh) ->
  INR d - 1 < nw_nu sh -> vectors d l -> (forall i a, 0 < a -> 0 < chi i a) ->
  exists g q S, c_filled (NIW R (N:=NumR lg)) dl sh l = Ok g /\
    niw_plus_group (N:=NumR lg) dl sh g = Ok q /\
    sample_inverse_wishart (N:=NumR lg) inv_R chi norm (nw_nu q) (nw_psi q) = Ok S /\ square d S /\ spd d S /\
    nw_kappa q = nw_kappa sh + INR (length l) /\
    normal_law d (fun i => coord i (nw_mu q)) (fun i j => entry S i j / nw_kappa q)
      (fun z mu => exists cov, niw_sampler_init (N:=NumR lg) inv_R dl chi norm z sh g = Ok (mu, cov)) /\
    forall z, length z = d -> exists s, niw_sampler_init (N:=NumR lg) inv_R dl chi norm z sh g = Ok s /\
      normal_law d (fun i => coord i (fst s)) (fun i j => entry S i j / nw_kappa q)
        (fun z' x => niw_sampler_eval (N:=NumR lg) s z' = Ok x).
Proof. intros lg dl sh d l chi norm Hd Hm Hp Hk Hs Hn Hl Hc. exact (sampler_laws lg d dl sh l chi norm Hd Hm Hp Hk Hs Hn Hl Hc). Qed.
Print Assumptions C75_niw_sampler_partial.

(** C75, second half, is false whenever kappa_n differs from 1: the values are not drawn with
    covariance Sigma. *)
Theorem C75_values_have_wrong_covariance : forall lg dl (sh : niw_shared R) d l chi norm,
  (0 < d)%nat -> length (nw_mu sh) = d -> square d (nw_psi sh) -> 0 < nw_kappa sh -> spd d (nw_psi sh) ->
  INR d - 1 < nw_nu sh -> vectors d l -> (forall i a, 0 < a -> 0 < chi i a) ->
  nw_kappa sh + INR (length l) <> 1 ->
  exists g q S, c_filled (NIW R (N:=NumR lg)) dl sh l = Ok g /\
    niw_plus_group (N:=NumR lg) dl sh g = Ok q /\
    sample_inverse_wishart (N:=NumR lg) inv_R chi norm (nw_nu q) (nw_psi q) = Ok S /\
    forall z, length z = d -> exists s, niw_sampler_init (N:=NumR lg) inv_R dl chi norm z sh g = Ok s /\
      ~ normal_law d (fun i => coord i (fst s)) (entry S) (fun z' x => niw_sampler_eval (N:=NumR lg) s z' = Ok x).
Proof.
  intros lg dl sh d l chi norm Hd Hm Hp Hk Hs Hn Hl Hc Hne.
  destruct (C75_niw_sampler_partial lg dl sh d l chi norm Hd Hm Hp Hk Hs Hn Hl Hc) as (g & q & S & E1 & E2 & E3 & _ & Sp & Ek & _ & H).
  exists g, q, S. split; [exact E1|split; [exact E2|split; [exact E3|]]].
  intros z Hz. destruct (H z Hz) as (s & Es & Hlaw). exists s. split; [exact Es|]. intro Hbad.
  pose proof (law_unique d _ _ _ _ Hlaw Hbad O O Hd Hd) as E. cbv beta in E.
  assert (P : 0 < entry S O O).
  { destruct d as [|d']; [lia|]. exact (spdf_pivot d' (entry S) Sp). }
  assert (K : 0 < nw_kappa q) by (rewrite Ek; pose proof (pos_INR (length l)); lra).
  apply Hne. rewrite <- Ek. apply (f_equal (fun t => t * nw_kappa q / entry S O O)) in E.
  replace (entry S 0 0 / nw_kappa q * nw_kappa q / entry S 0 0) with 1 in E by (field; lra).
  replace (entry S 0 0 * nw_kappa q / entry S 0 0) with (nw_kappa q) in E by (field; lra). lra.
Qed.
Print Assumptions C75_values_have_wrong_covariance.

Theorem C75_niw_values_refuted : exists (lg : R -> R) dl (sh : niw_shared R) d l chi norm g q S z s,
  spd d (nw_psi sh) /\ 0 < nw_kappa sh /\ INR d - 1 < nw_nu sh /\ (forall (i : nat) a, 0 < a -> 0 < chi i a) /\
  c_filled (NIW R (N:=NumR lg)) dl sh l = Ok g /\ niw_plus_group (N:=NumR lg) dl sh g = Ok q /\
  sample_inverse_wishart (N:=NumR lg) inv_R chi norm (nw_nu q) (nw_psi q) = Ok S /\
  niw_sampler_init (N:=NumR lg) inv_R dl chi norm z sh g = Ok s /\
  ~ normal_law d (fun i => coord i (fst s)) (entry S) (fun z' x => niw_sampler_eval (N:=NumR lg) s z' = Ok x).
Proof.
  exists (fun x => x), 0%nat, (mk_niw_shared [0; 1] 2 ex_sigma 4), 2%nat, [[1; 1]; [0; -4]], (fun _ a => a / 3), (fun _ _ => 1).
  destruct (C75_values_have_wrong_covariance (fun x => x) 0 (mk_niw_shared [0; 1] 2 ex_sigma 4) 2 [[1; 1]; [0; -4]] (fun _ a => a / 3) (fun _ _ => 1))
    as (g & q & S & E1 & E2 & E3 & H); try (cbn; lra); try lia; try reflexivity; try apply ex_sigma_spd.
  - split; [unfold short; cbn; lia|repeat constructor].
  - intros; lra.
  - destruct (H [0; 0] eq_refl) as (s & Es & Hn). exists g, q, S, [0; 0], s.
    split; [apply ex_sigma_spd|]. split; [cbn; lra|]. split; [cbn; lra|]. split; [intros; lra|]. auto.
Qed.
Print Assumptions C75_niw_values_refuted.
