(** Properties C27 and the normal-inverse-Wishart parts of C28, C29, C31, and C67, in exact
    arithmetic ([NumR lg]; determinant and inverse those of mathcomp, model/LinR.v). *)
From Coq Require Import Permutation Reals Lra Lia.
From Verif.model Require Import Base Num NumR NumTerm Component NIW LinR.
From Verif.spec Require Import GroupSpec GaussSpec NiwSpec.
From Verif.proof Require Import BaseProof GroupProof NIWProof NIWScore.
Local Open Scope R_scope.

(** ** C27: whatever calls led to the data [l], the group holds the number of data, the vector of
    coordinate sums and the matrix of sums of products of coordinates, and it is the group
    filled with any rearrangement of [l]. *)
Theorem C27_niw_group_is_multiset : forall lg dl (sh : niw_shared R) (d : nat) ops l l',
  length (nw_mu sh) = d ->
  ghistory (vec_op d) (vectors d) [] ops l -> Permutation l l' ->
  let C := NIW R (N:=NumR lg) in
  exists g, grun C dl sh (c_init C sh) ops = Ok g /\ c_filled C dl sh l' = Ok g /\
    nw_count g = Z.of_nat (length l) /\
    is_vec d (fun i => rsum (map (coord i) l)) (nw_sum_x g) /\
    is_mat d (fun i j => rsum (map (fun x => coord i x * coord j x) l)) (nw_sum_xxT g).
Proof.
  intros lg dl sh d ops l l' Hd H P C. exists (niw_stat d l). split; [now apply niw_history|].
  split.
  - rewrite (niw_stat_perm d l l' P). apply niw_filled; [exact Hd|]. apply (vectors_perm d l l' P).
    eapply ghistory_fits; [|exact H]. exact (vectors_nil d sh Hd).
  - split; [reflexivity|]. split; [apply tab_is_vec|apply mtab_is_mat].
Qed.
Print Assumptions C27_niw_group_is_multiset.

Example C27_nonvacuous : exists l,
  ghistory (vec_op 2) (vectors 2) [] [GAdd [1; 2]; GRep [3; -1] 2; GRem [1; 2]; GMerge [[5; 5]]; GRem [3; -1]] l /\
  Permutation l [[3; -1]; [5; 5]].
Proof.
  assert (V : forall l, (length l <= 5)%nat -> List.Forall (fun x : list R => length x = 2%nat) l -> vectors 2 l).
  { intros l H1 H2. split; [unfold short; lia|exact H2]. }
  eexists. split.
  - eapply gh_cons; [apply gs_add|exact I|apply V; [cbn; lia|repeat constructor]|].
    eapply gh_cons; [apply gs_rep|reflexivity|apply V; [cbn; lia|repeat constructor]|].
    eapply gh_cons; [apply (gs_rem [[3; -1]; [3; -1]] [1; 2] [])|exact I|apply V; [cbn; lia|repeat constructor]|].
    eapply gh_cons; [apply gs_merge|exact I|apply V; [cbn; lia|repeat constructor]|].
    eapply gh_cons; [apply (gs_rem [[5; 5]] [3; -1] [[3; -1]])|exact I|apply V; [cbn; lia|repeat constructor]|].
    constructor.
  - cbn. apply perm_swap.
Qed.

(** A value of the wrong size is rejected at debug level 3 and undefined below. *)
Example C27_wrong_size : let C := NIW term (N:=NumTerm) in
  let sh := mk_niw_shared [TOf 0; TOf 0] (TOf 1) [[TOf 1; TOf 0]; [TOf 0; TOf 1]] (TOf 3) in
  c_add C 3 sh (c_init C sh) [TOf 1] = Fail /\ c_add C 0 sh (c_init C sh) [TOf 1] = UB.
Proof. split; reflexivity. Qed.

(** ** C28 *)
Theorem C28_niw_chain_rule : forall lg dl (sh : niw_shared R) (d : nat) l,
  (0 < d)%nat -> length (nw_mu sh) = d -> square d (nw_psi sh) ->
  spd d (nw_psi sh) -> 0 < nw_kappa sh -> INR d - 1 < nw_nu sh -> few_vectors d l ->
  let C := NIW R (N:=NumR lg) in
  (exists g s, c_filled C dl sh l = Ok g /\ niw_score_data (N:=NumR lg) det_R dl sh g = Ok s /\
    c_chain C dl sh 0 Rplus (niw_score_value (N:=NumR lg) det_R inv_R dl) (c_init C sh) l = Ok s) /\
  niw_score_data (N:=NumR lg) det_R dl sh (c_init C sh) = Ok 0.
Proof. intros lg dl sh d l Hd Hm Hp Hs Hk Hn Hl. exact (niw_chain lg d dl sh Hd Hm Hp Hk Hs Hn l Hl). Qed.
Print Assumptions C28_niw_chain_rule.

(** Hence the sum of the predictive scores does not depend on the order of the data. *)
Theorem C28_niw_exchangeable : forall lg dl (sh : niw_shared R) (d : nat) l l',
  (0 < d)%nat -> length (nw_mu sh) = d -> square d (nw_psi sh) ->
  spd d (nw_psi sh) -> 0 < nw_kappa sh -> INR d - 1 < nw_nu sh -> few_vectors d l -> Permutation l l' ->
  let C := NIW R (N:=NumR lg) in
  let joint := c_chain C dl sh 0 Rplus (niw_score_value (N:=NumR lg) det_R inv_R dl) (c_init C sh) in
  joint l = joint l'.
Proof.
  intros lg dl sh d l l' Hd Hm Hp Hs Hk Hn Hl P C joint.
  destruct (niw_chain lg d dl sh Hd Hm Hp Hk Hs Hn l Hl) as [(g & s & G1 & G2 & G3) _].
  destruct (niw_chain lg d dl sh Hd Hm Hp Hk Hs Hn l' (few_perm d l l' P Hl)) as [(g' & s' & G1' & G2' & G3') _].
  unfold joint, C. rewrite G3, G3', <- G2, <- G2'. f_equal.
  rewrite (niw_filled lg d dl sh Hm l (proj1 Hl)) in G1.
  rewrite (niw_filled lg d dl sh Hm l' (proj1 (few_perm d l l' P Hl))) in G1'.
  rewrite (niw_stat_perm d l l' P) in G1. congruence.
Qed.
Print Assumptions C28_niw_exchangeable.

(** ** C29 *)
Theorem C29_niw_plus_group_composes : forall lg dl (sh : niw_shared R) (d : nat) xs ys,
  (0 < d)%nat -> length (nw_mu sh) = d -> square d (nw_psi sh) -> 0 < nw_kappa sh -> vectors d (xs ++ ys) ->
  let C := NIW R (N:=NumR lg) in
  exists gx gy gxy px q, c_filled C dl sh xs = Ok gx /\ c_filled C dl sh ys = Ok gy /\ c_filled C dl sh (xs ++ ys) = Ok gxy /\
    niw_plus_group (N:=NumR lg) dl sh gx = Ok px /\ niw_plus_group (N:=NumR lg) dl px gy = Ok q /\
    niw_plus_group (N:=NumR lg) dl sh gxy = Ok q.
Proof. intros lg dl sh d xs ys Hd Hm Hp Hk Hl. exact (niw_compose lg d dl sh Hd Hm Hp Hk xs ys Hl). Qed.
Print Assumptions C29_niw_plus_group_composes.

(** ** C31 *)
Theorem C31_niw_scorer_agrees : forall (F : Set) (N : Num F) det inv dl (sh : niw_shared F) g v s,
  niw_scorer_init dl sh g = Ok s -> niw_scorer_eval det inv sh s v = niw_score_value det inv dl sh g v.
Proof. intros F N det inv dl sh g v s H. unfold niw_score_value. now rewrite H. Qed.
Print Assumptions C31_niw_scorer_agrees.

(** ** C67: whatever data the group holds, the posterior scale matrix is symmetric and positive
    definite with a positive determinant, so that no logarithm of score_data and score_value is
    taken outside its domain. *)
Theorem C67_niw_posterior_valid : forall lg dl (sh : niw_shared R) (d : nat) l,
  (0 < d)%nat -> length (nw_mu sh) = d -> square d (nw_psi sh) -> 0 < nw_kappa sh ->
  spd d (nw_psi sh) -> vectors d l ->
  exists g q, c_filled (NIW R (N:=NumR lg)) dl sh l = Ok g /\ niw_plus_group (N:=NumR lg) dl sh g = Ok q /\
    square d (nw_psi q) /\ spd d (nw_psi q) /\ 0 < det_R (nw_psi q) /\
    nw_kappa q = nw_kappa sh + INR (length l) /\ nw_nu q = nw_nu sh + INR (length l).
Proof. intros lg dl sh d l Hd Hm Hp Hk Hs Hl. exact (niw_post_spd lg d dl sh Hd Hm Hp Hk Hs l Hl). Qed.
Print Assumptions C67_niw_posterior_valid.

(** Two dimensions, a non-diagonal scale matrix, three data. *)
Example C67_nonvacuous : let sh := mk_niw_shared [1; 0] 2 [[2; 1]; [1; 3]] 4 in
  (0 < 2)%nat /\ length (nw_mu sh) = 2%nat /\ square 2 (nw_psi sh) /\ 0 < nw_kappa sh /\
  spd 2 (nw_psi sh) /\ INR 2 - 1 < nw_nu sh /\ few_vectors 2 [[1; 1]; [0; -4]; [1; 1]].
Proof.
  cbn zeta. cbn [nw_mu nw_kappa nw_psi nw_nu]. split; [lia|]. split; [reflexivity|].
  split; [split; [reflexivity|repeat constructor]|]. split; [lra|]. split; [|split; [cbn; lra|]].
  - split.
    + intros i j Hi Hj. destruct i as [|[|i]]; [| |lia]; destruct j as [|[|j]]; try lia; reflexivity.
    + intros x (i & Hi & Hx). unfold quad, entry, coord. cbn.
      assert (E : x 0%nat * 2 * x 0%nat + (x 0%nat * 1 * x 1%nat + 0) + (x 1%nat * 1 * x 0%nat + (x 1%nat * 3 * x 1%nat + 0) + 0)
        = Rsqr (x 0%nat + x 1%nat) + (Rsqr (x 0%nat) + 2 * Rsqr (x 1%nat))) by (unfold Rsqr; ring).
      rewrite E. pose proof (Rle_0_sqr (x 0%nat + x 1%nat)) as A.
      pose proof (Rle_0_sqr (x 0%nat)). pose proof (Rle_0_sqr (x 1%nat)).
      destruct i as [|[|i]]; [| |lia].
      * pose proof (Rlt_0_sqr _ Hx). lra.
      * pose proof (Rlt_0_sqr _ Hx). lra.
  - split; [split; [unfold short; cbn; lia|repeat constructor]|cbn; lia].
Qed.
