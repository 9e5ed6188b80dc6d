(** Property C60: the predictive probabilities of the count models over all counts, in exact
    arithmetic.  [infinite_sum f l] (standard library): the partial sums of f converge to l. *)
From Coq Require Import Reals Lra Lia.
From Verif.model Require Import Base Num NumR Component BNB GP.
From Verif.spec Require Import GroupSpec LgammaSpec.
From Verif.proof Require Import GroupProof CountsProof LgammaProof ClosedForm SeriesProof.
Local Open Scope R_scope.

(** Gamma-Poisson: the probabilities of 0, 1, 2, ... sum to 1. *)
Theorem C60_gp_normalised : forall lg, lgamma_like lg -> forall dl (sh : gp_shared R) (l : list Z) g,
  0 < gp_alpha sh -> 0 < gp_inv_beta sh -> small_counts l ->
  c_filled (GP R (N:=NumR lg)) dl sh l = Ok g ->
  infinite_sum (fun v => exp (gp_score_value (N:=NumR lg) sh g (Z.of_nat v))) 1.
Proof. exact gp_sums_to_one. Qed.
Print Assumptions C60_gp_normalised.

(** Beta negative binomial, r >= 1: score_value has no binomial coefficient, so the probabilities
    sum to Gamma(a+r-1) Gamma(a+b) / (Gamma(a) Gamma(a+b+r-1)), where a and b are the posterior
    parameters.  For r = 1 that is 1. *)
Theorem C60_bnb_total : forall lg, lgamma_like lg -> forall dl (sh : bnb_shared R) (l : list Z) g (r : nat),
  0 < bnb_alpha sh -> 0 < bnb_beta sh -> bnb_r sh = Z.of_nat (S r) -> small_counts l ->
  c_filled (BNB R) dl sh l = Ok g ->
  let a := bnb_alpha sh + INR (S r) * INR (length l) in
  let b := bnb_beta sh + IZR (zsum l) in
  infinite_sum (fun v => exp (bnb_score_value (N:=NumR lg) sh g (Z.of_nat v))) (rising a r / rising (a + b) r).
Proof. exact bnb_total. Qed.
Print Assumptions C60_bnb_total.

(** One failure: normalised.  Missing from the full claim: r >= 2, where it is false (below). *)
Theorem C60_bnb_normalised_partial : forall lg, lgamma_like lg -> forall dl (sh : bnb_shared R) (l : list Z) g,
  0 < bnb_alpha sh -> 0 < bnb_beta sh -> bnb_r sh = 1%Z -> small_counts l ->
  c_filled (BNB R) dl sh l = Ok g ->
  infinite_sum (fun v => exp (bnb_score_value (N:=NumR lg) sh g (Z.of_nat v))) 1.
Proof. exact bnb_one. Qed.
Print Assumptions C60_bnb_normalised_partial.

(** For every r >= 2 and every group the probabilities sum to less than 1. *)
Theorem C60_bnb_below_one : forall lg, lgamma_like lg -> forall dl (sh : bnb_shared R) (l : list Z) g (r : nat),
  0 < bnb_alpha sh -> 0 < bnb_beta sh -> bnb_r sh = Z.of_nat (S (S r)) -> small_counts l ->
  c_filled (BNB R) dl sh l = Ok g ->
  exists t, t < 1 /\ infinite_sum (fun v => exp (bnb_score_value (N:=NumR lg) sh g (Z.of_nat v))) t.
Proof. exact bnb_short. Qed.
Print Assumptions C60_bnb_below_one.

Example C60_gp_nonvacuous : let sh := mk_gp_shared 2 1 in
  0 < gp_alpha sh /\ 0 < gp_inv_beta sh /\ small_counts [3; 0; 4]%Z /\
  exists g, c_filled (GP R (N:=NumR lg_witness)) 0 sh [3; 0; 4]%Z = Ok g.
Proof.
  cbn zeta. split; [cbn; lra|]. split; [cbn; lra|]. split; [split; [cbn; lia|split; [repeat constructor; lia|cbn; lia]]|].
  eexists; apply gp_filled.
Qed.

(** alpha = beta = 1, r = 2, no data: the probabilities sum to one half. *)
Example C60_bnb_half : let sh := mk_bnb_shared 1 1 2 in exists g, c_filled (BNB R) 0 sh [] = Ok g /\
  infinite_sum (fun v => exp (bnb_score_value (N:=NumR lg_witness) sh g (Z.of_nat v))) (1 / 2).
Proof.
  cbn zeta. eexists. split; [reflexivity|].
  replace (1 / 2) with (rising (1 + INR 2 * INR 0) 1 / rising (1 + INR 2 * INR 0 + (1 + IZR 0)) 1) by (cbn; lra).
  apply (bnb_total lg_witness lg_witness_ok 0 (mk_bnb_shared 1 1 2) [] _ 1); try (cbn; lra); try reflexivity.
  split; [cbn; lia|split; [constructor|cbn; lia]].
Qed.

(** The full claim is false: with two failures the empty group's probabilities do not sum to 1. *)
Theorem C60_bnb_normalised_refuted : exists (sh : bnb_shared R) (l : list Z),
  0 < bnb_alpha sh /\ 0 < bnb_beta sh /\ bnb_r sh = 2%Z /\ small_counts l /\
  forall lg, lgamma_like lg -> forall dl, exists g, c_filled (BNB R) dl sh l = Ok g /\
    ~ infinite_sum (fun v => exp (bnb_score_value (N:=NumR lg) sh g (Z.of_nat v))) 1.
Proof. exact bnb_refute. Qed.
Print Assumptions C60_bnb_normalised_refuted.
