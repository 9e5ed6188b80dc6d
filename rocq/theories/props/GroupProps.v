(** Properties C19, C20, C21, C23, C24, C25, C26: group statistics. *)
From Coq Require Import Permutation Reals Lra.
From Verif.model Require Import Base Num NumR Component BB BNB GP NICH DD.
From Verif.spec Require Import GroupSpec GaussSpec.
From Verif.proof Require Import BaseProof GroupProof BBProof CountsProof NICHProof DDProof.

(** ** C19, Beta-Bernoulli: whatever calls led to the data [l], the group holds the number of
    heads and tails of [l], and it is the group filled with any rearrangement of [l]. *)
Theorem C19_bb_group_is_multiset : forall (F : Type) dl (sh : bb_shared F) ops l l',
  ghistory any_op short [] ops l -> Permutation l l' ->
  exists g, grun (BB F) dl sh (c_init (BB F) sh) ops = Ok g /\ c_filled (BB F) dl sh l' = Ok g /\
    bb_heads g = Z.of_nat (count_occ Bool.bool_dec l true) /\
    bb_tails g = Z.of_nat (count_occ Bool.bool_dec l false).
Proof.
  intros F dl sh ops l l' H P. exists (bb_stat l). split; [now apply bb_history|]. split; [|split; reflexivity].
  rewrite (bb_stat_perm l l' P). apply bb_filled. apply (short_perm _ _ P).
  eapply ghistory_fits; [|exact H]. unfold short. cbn. lia.
Qed.
Print Assumptions C19_bb_group_is_multiset.

Example C19_nonvacuous : exists l,
  ghistory any_op short [] [GAdd true; GAdd false; GRep true 3; GRem true; GMerge [false; true]; GRem false] l /\
  Permutation l [true; true; true; true; false].
Proof.
  eexists. split.
  - eapply gh_cons; [apply gs_add|exact I|unfold short; cbn; lia|].
    eapply gh_cons; [apply gs_add|exact I|unfold short; cbn; lia|].
    eapply gh_cons; [apply gs_rep|exact I|unfold short; cbn; lia|].
    eapply gh_cons; [apply (gs_rem [true] true [true; false; true])|exact I|unfold short; cbn; lia|].
    eapply gh_cons; [apply gs_merge|exact I|unfold short; cbn; lia|].
    eapply gh_cons; [apply (gs_rem [] false [true; true; true; false; true])|exact I|unfold short; cbn; lia|].
    constructor.
  - cbn. do 3 apply perm_skip. apply perm_swap.
Qed.

(** ** C20, Dirichlet-discrete. *)
Theorem C20_dd_group_is_multiset : forall (F : Type) dl (sh : dd_shared F) ops l l',
  ghistory (dd_op (dd_dim sh)) (in_dim (dd_dim sh)) [] ops l -> Permutation l l' ->
  exists g, grun (DD F) dl sh (c_init (DD F) sh) ops = Ok g /\ c_filled (DD F) dl sh l' = Ok g /\
    length (dd_counts g) = dd_dim sh /\
    (forall i c, nth_error (dd_counts g) i = Some c -> c = Z.of_nat (count_occ BinInt.Z.eq_dec l (Z.of_nat i))) /\
    dd_count_sum g = Z.of_nat (length l) /\ dd_count_sum g = zsum (dd_counts g).
Proof.
  intros F dl sh ops l l' H P.
  assert (Hl : in_dim (dd_dim sh) l).
  { eapply ghistory_fits; [|exact H]. split; [unfold short; cbn; lia|constructor]. }
  exists (dd_stat (dd_dim sh) l). split; [now apply dd_history|].
  split; [rewrite (dd_stat_perm _ l l' P); apply dd_filled; eapply in_dim_perm; eauto|].
  cbn [dd_stat dd_counts dd_count_sum]. split; [apply tally_length|]. split; [|split; [reflexivity|]].
  - intros i c Hc. assert (i < dd_dim sh) as Hi by (rewrite <- (tally_length (dd_dim sh) l); apply nth_error_Some; congruence).
    rewrite tally_nth in Hc by exact Hi. congruence.
  - symmetry. apply zsum_tally, Hl.
Qed.
Print Assumptions C20_dd_group_is_multiset.

Example C20_nonvacuous : exists l,
  ghistory (dd_op 3) (in_dim 3) [] [GAdd 2; GAdd 0; GRep 2 2; GRem 2; GAdd 1]%Z l /\
  Permutation l [0; 1; 2; 2]%Z.
Proof.
  eexists. split.
  - eapply gh_cons; [apply gs_add|split; exact I|split; [unfold short; cbn; lia|repeat constructor; lia]|].
    eapply gh_cons; [apply gs_add|split; exact I|split; [unfold short; cbn; lia|repeat constructor; lia]|].
    eapply gh_cons; [apply gs_rep|split; [exact I|cbn; lia]|split; [unfold short; cbn; lia|repeat constructor; lia]|].
    eapply gh_cons; [apply (gs_rem [] 2%Z [2; 0; 2]%Z)|split; exact I|split; [unfold short; cbn; lia|repeat constructor; lia]|].
    eapply gh_cons; [apply gs_add|split; exact I|split; [unfold short; cbn; lia|repeat constructor; lia]|].
    constructor.
  - cbn. apply perm_trans with [1; 0; 2; 2]%Z; [apply perm_skip, perm_swap|apply perm_swap].
Qed.

(** ** C21, Dirichlet-discrete merge.  Full statement: forall data xs ys,
      merge of the groups of xs and ys = the group of ys ++ xs.
    Proved part: the counts are those of the pooled data.  Missing: count_sum, which keeps the
    value of the destination group (dd.hpp:151-158 does not touch it). *)
Theorem C21_dd_merge_pools_counts_partial : forall (F : Type) dl (sh : dd_shared F) xs ys,
  in_dim (dd_dim sh) (ys ++ xs) ->
  exists g h m p, c_filled (DD F) dl sh xs = Ok g /\ c_filled (DD F) dl sh ys = Ok h /\
    c_merge (DD F) dl sh g h = Ok m /\ c_filled (DD F) dl sh (ys ++ xs) = Ok p /\
    dd_counts m = dd_counts p /\ dd_count_sum m = Z.of_nat (length xs) /\
    dd_count_sum p = Z.of_nat (length xs + length ys).
Proof.
  intros F dl sh xs ys H.
  assert (Hx : in_dim (dd_dim sh) xs) by (eapply (fits_app_r (in_dim (dd_dim sh)) ys); [exact (in_dim_tail _)|exact H]).
  assert (Hy : in_dim (dd_dim sh) ys).
  { eapply (fits_app_r (in_dim (dd_dim sh)) xs); [exact (in_dim_tail _)|]. eapply in_dim_perm; [|exact H]. apply Permutation_app_comm. }
  do 4 eexists. split; [now apply dd_filled|]. split; [now apply dd_filled|]. split; [now apply dd_merge_stat|].
  split; [now apply dd_filled|]. cbn [dd_stat dd_counts dd_count_sum]. rewrite app_length.
  split; [reflexivity|]. split; [reflexivity|]. f_equal. lia.
Qed.
Print Assumptions C21_dd_merge_pools_counts_partial.

(** The full statement is false: merging {0} into {1} leaves count_sum = 1, and the marginal
    likelihood computed from the merged group differs from the one of the pooled data. *)
Theorem C21_dd_merge_pools_data_refuted : exists (sh : dd_shared R) (xs ys : list Z),
  in_dim (dd_dim sh) (ys ++ xs) /\
  exists g h m p, c_filled (DD R) 0 sh xs = Ok g /\ c_filled (DD R) 0 sh ys = Ok h /\
    c_merge (DD R) 0 sh g h = Ok m /\ c_filled (DD R) 0 sh (ys ++ xs) = Ok p /\ m <> p.
Proof.
  exists (mk_dd_shared [1; 1]%R), [1%Z], [0%Z]. split.
  - split; [unfold short; cbn; lia|repeat constructor; cbn; lia].
  - do 4 eexists. repeat (split; [reflexivity|]). intro E. discriminate E.
Qed.
Print Assumptions C21_dd_merge_pools_data_refuted.

(** ** C24, beta negative binomial: count and sum of the data, modulo 2^32 (the fields are
    uint32_t). *)
Theorem C24_bnb_group_is_multiset : forall (F : Type) dl (sh : bnb_shared F) ops l l',
  ghistory any_op all_lists [] ops l -> Permutation l l' ->
  exists g, grun (BNB F) dl sh (c_init (BNB F) sh) ops = Ok g /\ c_filled (BNB F) dl sh l' = Ok g /\
    (bnb_count g = Z.of_nat (length l) mod 4294967296)%Z /\ (bnb_sum g = zsum l mod 4294967296)%Z.
Proof.
  intros F dl sh ops l l' H P. exists (bnb_stat l). split; [now apply bnb_history|].
  split; [|split; reflexivity]. rewrite (bnb_stat_perm l l' P). apply bnb_filled.
Qed.
Print Assumptions C24_bnb_group_is_multiset.

Example C24_nonvacuous : exists l,
  ghistory any_op all_lists [] [GAdd 5; GRep 3 2; GRem 5; GMerge [7; 1]; GRem 3]%Z l /\ l = [7; 1; 3]%Z /\
  grun (BNB unit) 0 (mk_bnb_shared tt tt 2%Z) (mk_bnb 0 0) [GAdd 5; GRep 3 2; GRem 5; GMerge [7; 1]; GRem 3]%Z
  = Ok (mk_bnb 3 11).
Proof.
  eexists. split; [|split; [|reflexivity]].
  - eapply gh_cons; [apply gs_add|exact I|exact I|].
    eapply gh_cons; [apply gs_rep|exact I|exact I|].
    eapply gh_cons; [apply (gs_rem [3; 3]%Z 5%Z [])|exact I|exact I|].
    eapply gh_cons; [apply gs_merge|exact I|exact I|].
    eapply gh_cons; [apply (gs_rem [7; 1]%Z 3%Z [3%Z])|exact I|exact I|].
    constructor.
  - reflexivity.
Qed.

Local Open Scope R_scope.

(** ** C23, Gamma-Poisson in exact arithmetic: count, sum and log of the product of the
    factorials. *)
Theorem C23_gp_group_is_multiset : forall lg dl (sh : gp_shared R) ops l l',
  ghistory any_op all_lists [] ops l -> Permutation l l' ->
  let C := GP R (N := NumR lg) in
  exists g, grun C dl sh (c_init C sh) ops = Ok g /\ c_filled C dl sh l' = Ok g /\
    (gp_count g = Z.of_nat (length l) mod 4294967296)%Z /\ (gp_sum g = zsum l mod 4294967296)%Z /\
    gp_log_prod g = rsum (map (fun v => ln (INR (fact (Z.to_nat v)))) l).
Proof.
  intros lg dl sh ops l l' H P. exists (gp_stat l). split; [now apply gp_history|].
  split; [rewrite (gp_stat_perm l l' P); apply gp_filled|]. split; [reflexivity|]. split; [reflexivity|].
  cbn [gp_stat gp_log_prod]. apply slf_rsum.
Qed.
Print Assumptions C23_gp_group_is_multiset.

(** ** C25, normal-inverse-chi-squared in exact arithmetic: after any additions, removals and
    merges (not of two empty groups) count, mean and centred sum of squares of the data. *)
Theorem C25_nich_group_is_exact : forall lg dl (sh : nich_shared R) ops l l',
  ghistory nich_op short [] ops l -> Permutation l l' ->
  let C := NICH R (N := NumR lg) in
  exists g, grun C dl sh (c_init C sh) ops = Ok g /\ c_filled C dl sh l' = Ok g /\
    ni_count g = Z.of_nat (length l) /\ ni_mean g = rmean l /\ ni_ctv g = ssd l.
Proof.
  intros lg dl sh ops l l' H P. exists (nich_stat l). split; [now apply nich_history|].
  split; [rewrite (nich_stat_perm l l' P); apply nich_filled; apply (short_perm _ _ P);
          eapply ghistory_fits; [|exact H]; unfold short; cbn; lia|].
  split; [reflexivity|]. split; reflexivity.
Qed.
Print Assumptions C25_nich_group_is_exact.

Example C25_nonvacuous : exists l,
  ghistory nich_op short [] [GAdd 1; GAdd 5; GMerge [3; 7]; GRem 5] l /\ l = [3; 7; 1] /\
  rmean l = 11 / 3 /\ ssd l = 56 / 3.
Proof.
  eexists. split; [|split; [reflexivity|split]].
  - eapply gh_cons; [apply gs_add|exact I|unfold short; cbn; lia|].
    eapply gh_cons; [apply gs_add|exact I|unfold short; cbn; lia|].
    eapply gh_cons; [apply gs_merge|cbn; discriminate|unfold short; cbn; lia|].
    eapply gh_cons; [apply (gs_rem [3; 7] 5 [1])|exact I|unfold short; cbn; lia|].
    constructor.
  - cbn. lra.
  - unfold ssd, Rsqr. cbn. lra.
Qed.

(** ** C26, add_repeated_value.  Full statement: from every group, add_repeated_value(v, n) is
    n times add_value(v).  Proved: it holds from the empty group (n > 0) and for n = 1 ... *)
Theorem C26_nich_repeated_partial : forall lg dl (sh : nich_shared R) (v : R) n,
  let C := NICH R (N := NumR lg) in
  ((0 < n)%nat -> short (repeat v n) ->
    exists g, c_rep C dl sh (c_init C sh) v (Z.of_nat n) = Ok g /\ c_filled C dl sh (repeat v n) = Ok g) /\
  (forall g, c_rep C dl sh g v 1 = c_adds C dl sh g [v]).
Proof.
  intros lg dl sh v n C. split.
  - intros Hn Hs. exists (nich_stat (repeat v n)). unfold C. split.
    + rewrite nich_init_stat. now apply nich_rep_empty.
    + now apply nich_filled.
  - intro g. unfold C. rewrite nich_rep_one. cbn [c_adds]. now destruct (c_add (NICH R (N:=NumR lg)) dl sh g v).
Qed.
Print Assumptions C26_nich_repeated_partial.

(** ... and in general the mean it stores is off by (n - 1) * mean / (count + n): it is right
    only for n = 1 or a group of mean 0. *)
Theorem C26_nich_repeated_mean_error : forall lg dl (sh : nich_shared R) (l : list R) (v : R) n,
  let C := NICH R (N := NumR lg) in
  (0 < n)%nat -> short (repeat v n ++ l) ->
  exists g r t, c_filled C dl sh l = Ok g /\ c_rep C dl sh g v (Z.of_nat n) = Ok r /\
    c_adds C dl sh g (repeat v n) = Ok t /\ ni_count r = ni_count t /\
    ni_mean r = ni_mean t + INR (n - 1) * rmean l / INR (length l + n).
Proof. exact nich_rep_error. Qed.
Print Assumptions C26_nich_repeated_mean_error.

Theorem C26_nich_repeated_refuted : exists (lg : R -> R) (sh : nich_shared R) (l : list R) (v : R) (n : nat),
  let C := NICH R (N := NumR lg) in
  exists g r t, c_filled C 0 sh l = Ok g /\ c_rep C 0 sh g v (Z.of_nat n) = Ok r /\
    c_adds C 0 sh g (repeat v n) = Ok t /\ ni_mean r = 4 / 3 /\ ni_mean t = 1.
Proof.
  exists (fun x => x), (mk_nich_shared 0 1 1 1), [1], 1, 2%nat.
  do 3 eexists. split; [reflexivity|]. split; [reflexivity|]. split; [reflexivity|]. cbn. split; lra.
Qed.
Print Assumptions C26_nich_repeated_refuted.
