(** Dirichlet-process-discrete model: C22, C39, C40, C42 and the parts of C28, C30, C31, C37, C58
    about it.  Scores in exact arithmetic ([NumR lg]). *)
From Coq Require Import Permutation Reals Lra.
From Verif.spec Require Import GroupSpec GaussSpec LgammaSpec SharedSpec.
From Verif.model Require Import Base Num NumR Component Sparse DPD SharedRun.
From Verif.proof Require Import BaseProof GroupProof LgammaProof.
From stdpp Require Import gmap.
From Verif.proof Require Import MapSum DPDProof DPDScore DPDShared.
Local Open Scope R_scope.

(** ** C22: the counts of the group are those of the data, whatever calls led there. *)
Theorem C22_dpd_group_is_multiset : forall (F : Type) dl (sh : dpd_shared F) ops l l',
  let known v := v <> OTHER /\ dp_betas sh !! v <> None in
  ghistory (known_op known) (drawn_from known) [] ops l -> Permutation l l' ->
  exists g, grun (DPD F) dl sh (c_init (DPD F) sh) ops = Ok g /\ c_filled (DPD F) dl sh l' = Ok g /\
    (forall v, ctr_get_count g v = Z.of_nat (count_occ BinInt.Z.eq_dec l v)) /\
    ctr_get_total g = Ok (Z.of_nat (length l)) /\
    (forall v c, In (v, c) (map_to_list (cmap g)) -> c <> 0%Z).
Proof.
  intros F dl sh ops l l' known H P. exists (dpd_stat l). split; [now apply dpd_history|]. split.
  - rewrite (dpd_stat_perm l l' P). apply dpd_filled. apply (drawn_perm _ _ _ P).
    eapply ghistory_fits; [|exact H]. apply drawn_nil.
  - split; [apply dmap_get|]. split; [reflexivity|]. intros v c Hin.
    apply (in_order _ _ _ _ (Permutation_refl _)) in Hin. cbn [dpd_stat cmap] in Hin. rewrite dmap_lookup in Hin.
    destruct (Z.eqb_spec (zcount l v) 0); [discriminate|congruence].
Qed.
Print Assumptions C22_dpd_group_is_multiset.

Definition ex_sh : dpd_shared R := mk_dpd_shared 1 (/ 2) (/ 4) {[ 3%Z := / 2; 7%Z := / 4 ]} (dpd_stat [3; 3; 7]%Z).
Example C22_nonvacuous : exists l,
  ghistory (known_op (dpd_known ex_sh)) (drawn_from (dpd_known ex_sh)) [] [GAdd 3; GAdd 7; GRep 7 2; GRem 7]%Z l /\
  Permutation l [3; 7; 7]%Z.
Proof.
  assert (K3 : dpd_known ex_sh 3) by (split; [discriminate|vm_compute; discriminate]).
  assert (K7 : dpd_known ex_sh 7) by (split; [discriminate|vm_compute; discriminate]).
  eexists. split.
  - eapply gh_cons; [apply gs_add|split; exact I|split; [unfold short; cbn; lia|cbn [repeat app]; repeat (apply List.Forall_cons; [assumption|]); apply List.Forall_nil]|].
    eapply gh_cons; [apply gs_add|split; exact I|split; [unfold short; cbn; lia|cbn [repeat app]; repeat (apply List.Forall_cons; [assumption|]); apply List.Forall_nil]|].
    eapply gh_cons; [apply gs_rep|split; [exact I|exact K7]|split; [unfold short; cbn; lia|cbn [repeat app]; repeat (apply List.Forall_cons; [assumption|]); apply List.Forall_nil]|].
    eapply gh_cons; [apply (gs_rem [] 7%Z [7; 7; 3]%Z)|split; exact I|split; [unfold short; cbn; lia|cbn [repeat app]; repeat (apply List.Forall_cons; [assumption|]); apply List.Forall_nil]|].
    constructor.
  - cbn. apply perm_trans with [7; 3; 7]%Z; [apply perm_skip, perm_swap|apply perm_swap].
Qed.

(** ** C59: merging two groups pools the counts, for every visiting order of the source.  Full
    statement: the result is the group of the union.  Missing (false): the total, which counts the
    source twice (finding on SparseCounter::merge, C17, reached through Group::merge). *)
Theorem C59_dpd_merge_pools_counts_partial : forall (F : Type) dl (sh : dpd_shared F) xs ys g h order,
  drawn_from (fun v => v <> OTHER /\ dp_betas sh !! v <> None) xs -> drawn_from (fun v => v <> OTHER /\ dp_betas sh !! v <> None) ys ->
  (Z.of_nat (length xs) + 2 * Z.of_nat (length ys) <= 2147483647)%Z ->
  c_filled (DPD F) dl sh xs = Ok g -> c_filled (DPD F) dl sh ys = Ok h ->
  Permutation order (map_to_list (cmap h)) ->
  exists m, ctr_merge g h order = Ok m /\ c_merge (DPD F) dl sh g h = Ok m /\
    (forall v, ctr_get_count m v = Z.of_nat (count_occ BinInt.Z.eq_dec (ys ++ xs) v)) /\
    (forall v c, In (v, c) (map_to_list (cmap m)) -> c <> 0%Z) /\
    ctr_get_total m = Ok (Z.of_nat (length (ys ++ xs)) + Z.of_nat (length ys))%Z.
Proof.
  intros F dl sh xs ys g h order Hx Hy Hs Hg Hh P. rewrite (dpd_filled dl sh xs Hx) in Hg. rewrite (dpd_filled dl sh ys Hy) in Hh.
  injection Hg as <-. injection Hh as <-. eexists. split; [apply dpd_merge_ok; eassumption|]. split; [|split; [|split]].
  - unfold DPD, c_merge, dpd_merge. apply dpd_merge_ok; [exact Hs|reflexivity].
  - intro v. exact (dmap_get (ys ++ xs) v).
  - intros v c Hin. apply (in_order _ _ _ _ (Permutation_refl _)) in Hin. cbn [cmap] in Hin. rewrite dmap_lookup in Hin.
    destruct (Z.eqb_spec (zcount (ys ++ xs) v) 0); [discriminate|congruence].
  - cbn [ctr_get_total ctotal]. rewrite app_length. f_equal. lia.
Qed.
Print Assumptions C59_dpd_merge_pools_counts_partial.

Theorem C59_dpd_merge_pools_data_refuted : exists (sh : dpd_shared R) (xs ys : list Z),
  drawn_from (dpd_known sh) (ys ++ xs) /\
  exists g h m p, c_filled (DPD R) 1 sh xs = Ok g /\ c_filled (DPD R) 1 sh ys = Ok h /\
    c_merge (DPD R) 1 sh g h = Ok m /\ c_filled (DPD R) 1 sh (ys ++ xs) = Ok p /\
    ctr_get_total p = Ok 2%Z /\ ctr_get_total m = Ok 3%Z.
Proof.
  exists ex_sh, [3%Z], [7%Z]. split.
  - split; [unfold short; cbn; lia|]. repeat constructor; try discriminate; vm_compute; discriminate.
  - do 4 eexists. repeat (split; [vm_compute; reflexivity|]). vm_compute. reflexivity.
Qed.
Print Assumptions C59_dpd_merge_pools_data_refuted.

(** ** C28: chain rule. *)
Theorem C28_dpd_chain_rule : forall lg, lgamma_like lg -> forall dl (sh : dpd_shared R) l,
  0 < dp_alpha sh -> (forall v b, dp_betas sh !! v = Some b -> 0 < b) ->
  drawn_from (fun v => v <> OTHER /\ dp_betas sh !! v <> None) l ->
  (exists g s, c_filled (DPD R) dl sh l = Ok g /\
    (forall order, Permutation order (map_to_list (cmap g)) -> dpd_score_data (N:=NumR lg) dl sh g order = Ok s) /\
    c_chain (DPD R) dl sh 0 Rplus (dpd_score_value (N:=NumR lg) dl) (c_init (DPD R) sh) l = Ok s) /\
  dpd_score_data (N:=NumR lg) dl sh (c_init (DPD R) sh) [] = Ok 0.
Proof.
  intros lg Hlg dl sh l Ha Hb Hl. split.
  - exists (dpd_stat l), (dpd_sd lg sh (dpd_stat l)). split; [now apply dpd_filled|]. split.
    + intros order P. now apply dpd_score_data_eq.
    + now apply (dpd_chain lg dl sh Hlg).
  - change (c_init (DPD R) sh) with (dpd_stat []). rewrite (dpd_score_data_eq lg dl sh [] []); [|apply drawn_nil|constructor].
    now rewrite dpd_sd_empty.
Qed.
Print Assumptions C28_dpd_chain_rule.

Theorem C28_dpd_exchangeable : forall lg, lgamma_like lg -> forall dl (sh : dpd_shared R) l l',
  0 < dp_alpha sh -> (forall v b, dp_betas sh !! v = Some b -> 0 < b) ->
  drawn_from (fun v => v <> OTHER /\ dp_betas sh !! v <> None) l -> Permutation l l' ->
  c_chain (DPD R) dl sh 0 Rplus (dpd_score_value (N:=NumR lg) dl) (c_init (DPD R) sh) l =
  c_chain (DPD R) dl sh 0 Rplus (dpd_score_value (N:=NumR lg) dl) (c_init (DPD R) sh) l'.
Proof.
  intros lg Hlg dl sh l l' Ha Hb Hl P.
  rewrite !(dpd_chain lg dl sh Hlg) by (auto; eapply drawn_perm; eauto). now rewrite (dpd_stat_perm l l' P).
Qed.
Print Assumptions C28_dpd_exchangeable.

Lemma ex_sh_pos : forall v b, dp_betas ex_sh !! v = Some b -> 0 < b.
Proof.
  intros v b. cbn [ex_sh dp_betas]. rewrite lookup_insert_Some, lookup_singleton_Some.
  intros [[_ <-]|[_ [_ <-]]]; lra.
Qed.
Example C28_dpd_nonvacuous : 0 < dp_alpha ex_sh /\ (forall v b, dp_betas ex_sh !! v = Some b -> 0 < b) /\
  drawn_from (fun v => v <> OTHER /\ dp_betas ex_sh !! v <> None) [3; 7; 3]%Z.
Proof.
  split; [cbn; lra|]. split; [exact ex_sh_pos|]. split; [unfold short; cbn; lia|].
  repeat constructor; try discriminate; vm_compute; discriminate.
Qed.

(** ** C58: closed form of the predictive probability. *)
Theorem C58_dpd_predictive : forall lg dl (sh : dpd_shared R) l g v b,
  0 < dp_alpha sh -> drawn_from (fun v => v <> OTHER /\ dp_betas sh !! v <> None) l -> c_filled (DPD R) dl sh l = Ok g ->
  v <> OTHER -> dp_betas sh !! v = Some b -> 0 < b ->
  (exists s, dpd_score_value (N:=NumR lg) dl sh g v = Ok s /\
    exp s = (dp_alpha sh * b + INR (count_occ BinInt.Z.eq_dec l v)) / (dp_alpha sh + INR (length l))) /\
  (0 < dp_beta0 sh -> exists s, dpd_score_value (N:=NumR lg) dl sh g OTHER = Ok s /\
    exp s = dp_alpha sh * dp_beta0 sh / (dp_alpha sh + INR (length l))).
Proof.
  intros lg dl sh l g v b Ha Hl Hg Hv Eb Hb. rewrite (dpd_filled dl sh l Hl) in Hg. injection Hg as <-.
  assert (E : beta_of sh v = b) by (unfold beta_of; now rewrite Eb).
  assert (Hn : 0 <= INR (length l)) by apply pos_INR.
  split.
  - eexists. split; [apply dpd_score_value_eq; split; congruence|]. rewrite E. unfold zcount. rewrite <- !INR_IZR_INZ.
    apply exp_ln. assert (0 < dp_alpha sh * b) by now apply Rmult_lt_0_compat.
    pose proof (pos_INR (count_occ BinInt.Z.eq_dec l v)). apply Rmult_lt_0_compat; [lra|apply Rinv_0_lt_compat; lra].
  - intro H0. eexists. split; [apply dpd_score_other_eq|]. rewrite <- INR_IZR_INZ. apply exp_ln.
    assert (0 < dp_alpha sh * dp_beta0 sh) by now apply Rmult_lt_0_compat. apply Rmult_lt_0_compat; [lra|apply Rinv_0_lt_compat; lra].
Qed.
Print Assumptions C58_dpd_predictive.

(** ** C30: the predictive probabilities of the known values and OTHER sum to
    (alpha * mass + n) / (alpha + n), mass = beta0 + sum of betas: to 1 exactly when mass = 1.
    When beta0 = 0, OTHER has probability 0 and is left out (the exact log of 0 is not a number). *)
Theorem C30_dpd_predictive_total : forall lg dl (sh : dpd_shared R) l g order,
  0 < dp_alpha sh -> (forall v b, dp_betas sh !! v = Some b -> 0 < b) -> 0 <= dp_beta0 sh ->
  drawn_from (fun v => v <> OTHER /\ dp_betas sh !! v <> None) l -> dp_betas sh !! OTHER = None ->
  c_filled (DPD R) dl sh l = Ok g -> Permutation order (map_to_list (dp_betas sh)) ->
  let mass := dp_beta0 sh + rsum (map snd order) in
  exists f other, (forall v, In v (map fst order) -> dpd_score_value (N:=NumR lg) dl sh g v = Ok (f v)) /\
    (0 < dp_beta0 sh -> exists s, dpd_score_value (N:=NumR lg) dl sh g OTHER = Ok s /\ other = exp s) /\
    (dp_beta0 sh = 0 -> other = 0) /\
    rsum (map (fun v => exp (f v)) (map fst order)) + other =
    (dp_alpha sh * mass + INR (length l)) / (dp_alpha sh + INR (length l)).
Proof.
  intros lg dl sh l g order Ha Hb H0 Hl Ho Hg P mass. rewrite (dpd_filled dl sh l Hl) in Hg. injection Hg as <-.
  set (n := INR (length l)). assert (Hn : 0 <= n) by apply pos_INR.
  exists (fun v => ln ((dp_alpha sh * beta_of sh v + IZR (zcount l v)) / (dp_alpha sh + IZR (Z.of_nat (length l))))).
  exists (dp_alpha sh * dp_beta0 sh / (dp_alpha sh + n)). split; [|split; [|split]].
  - intros v Hv. apply (in_keys _ _ _ P) in Hv. apply dpd_score_value_eq. split; [congruence|exact Hv].
  - intro Hp. eexists. split; [apply dpd_score_other_eq|]. rewrite <- INR_IZR_INZ. fold n. symmetry. apply exp_ln.
    assert (0 < dp_alpha sh * dp_beta0 sh) by now apply Rmult_lt_0_compat. apply Rmult_lt_0_compat; [lra|apply Rinv_0_lt_compat; lra].
  - intros ->. unfold Rdiv. ring.
  - rewrite map_map.
    pose proof (msum_order (fun v _ => exp (ln ((dp_alpha sh * beta_of sh v + IZR (zcount l v)) / (dp_alpha sh + IZR (Z.of_nat (length l)))))) _ _ P) as E.
    rewrite (dpd_probs_sum sh l Ha Hb Hl) in E. cbn beta in E. rewrite E, <- INR_IZR_INZ. fold n.
    rewrite <- (msum_order (fun _ b => b) _ _ P). unfold mass. change (fun kv : Z * R => kv.2) with (@snd Z R). field. lra.
Qed.
Print Assumptions C30_dpd_predictive_total.

Theorem C30_dpd_normalised : forall lg dl (sh : dpd_shared R) l g order,
  0 < dp_alpha sh -> (forall v b, dp_betas sh !! v = Some b -> 0 < b) -> 0 <= dp_beta0 sh ->
  drawn_from (fun v => v <> OTHER /\ dp_betas sh !! v <> None) l -> dp_betas sh !! OTHER = None ->
  c_filled (DPD R) dl sh l = Ok g -> Permutation order (map_to_list (dp_betas sh)) ->
  dp_beta0 sh + rsum (map snd order) = 1 ->
  exists f other, (forall v, In v (map fst order) -> dpd_score_value (N:=NumR lg) dl sh g v = Ok (f v)) /\
    (0 < dp_beta0 sh -> exists s, dpd_score_value (N:=NumR lg) dl sh g OTHER = Ok s /\ other = exp s) /\
    (dp_beta0 sh = 0 -> other = 0) /\
    rsum (map (fun v => exp (f v)) (map fst order)) + other = 1.
Proof.
  intros lg dl sh l g order Ha Hb H0 Hl Ho Hg P Hm.
  destruct (C30_dpd_predictive_total lg dl sh l g order Ha Hb H0 Hl Ho Hg P) as (f & other & A & B & C & D).
  exists f, other. split; [exact A|]. split; [exact B|]. split; [exact C|]. rewrite D, Hm.
  pose proof (pos_INR (length l)). field. lra.
Qed.
Print Assumptions C30_dpd_normalised.

Example C30_dpd_nonvacuous : 0 <= dp_beta0 ex_sh /\ dp_betas ex_sh !! OTHER = None /\
  dp_beta0 ex_sh + rsum (map snd (map_to_list (dp_betas ex_sh))) = 1 /\
  (exists g, c_filled (DPD R) 3 ex_sh [3; 7; 3]%Z = Ok g).
Proof.
  split; [cbn; lra|]. split; [vm_compute; reflexivity|]. split.
  - change (rsum (map snd (map_to_list (dp_betas ex_sh)))) with (msum (fun _ b => b) (dp_betas ex_sh)). cbn [ex_sh dp_betas dp_beta0].
    rewrite msum_insert by (apply lookup_singleton_None; lia). rewrite <- insert_empty, msum_insert by apply lookup_empty. rewrite msum_empty. lra.
  - eexists. apply dpd_filled. apply C28_dpd_nonvacuous.
Qed.

(** ** C31: the table of the Scorer holds score_value, for every value and also for unknown values
    (both fail in the same way). *)
Theorem C31_dpd_scorer_agrees : forall lg dl (sh : dpd_shared R) l g order_betas order_counts,
  0 < dp_alpha sh -> dp_betas sh !! OTHER = None ->
  drawn_from (fun v => v <> OTHER /\ dp_betas sh !! v <> None) l -> c_filled (DPD R) dl sh l = Ok g ->
  Permutation order_betas (map_to_list (dp_betas sh)) -> Permutation order_counts (map_to_list (cmap g)) ->
  exists s, dpd_scorer_init (N:=NumR lg) dl sh g order_betas order_counts = Ok s /\
    forall v, dpd_scorer_eval dl s v = dpd_score_value (N:=NumR lg) dl sh g v.
Proof.
  intros lg dl sh l g ob og Ha Ho Hl Hg Pb Pg. rewrite (dpd_filled dl sh l Hl) in Hg. injection Hg as <-.
  now apply dpd_scorer_ok.
Qed.
Print Assumptions C31_dpd_scorer_agrees.

(** ** C37: the mixture's score_data is the sum over the groups. *)
Theorem C37_dpd_mixture_score_data : forall lg dl ord (sh : dpd_shared R) data gs,
  (forall c, Permutation (ord c) (map_to_list (cmap c))) ->
  Forall2 (fun l g => drawn_from (fun v => v <> OTHER /\ dp_betas sh !! v <> None) l /\ c_filled (DPD R) dl sh l = Ok g) data gs ->
  exists ss, Forall2 (fun g s => dpd_score_data (N:=NumR lg) dl sh g (ord g) = Ok s) gs ss /\
    dpd_mixture_score_data (N:=NumR lg) dl ord sh gs = Ok (rsum ss).
Proof.
  intros lg dl ord sh data gs Ho H. exists (map (fun l => dpd_sd lg sh (dpd_stat l)) data).
  assert (E : gs = map dpd_stat data).
  { induction H as [|l g data gs [Hl Hg] H IH]; [reflexivity|]. cbn [map]. rewrite (dpd_filled dl sh l Hl) in Hg. injection Hg as <-. now rewrite IH. }
  assert (Hd : List.Forall (drawn_from (dpd_known sh)) data).
  { clear E. induction H as [|l g data gs [Hl Hg] H IH]; constructor; auto. }
  subst gs. split; [|now apply dpd_mixture_eq].
  clear H. induction Hd as [|l data Hl Hd IH]; cbn [map]; constructor; [|exact IH]. apply dpd_score_data_eq; auto.
Qed.
Print Assumptions C37_dpd_mixture_score_data.

Example C37_dpd_nonvacuous : exists gs, Forall2 (fun l g => drawn_from (fun v => v <> OTHER /\ dp_betas ex_sh !! v <> None) l /\
  c_filled (DPD R) 3 ex_sh l = Ok g) [[3; 7; 3]; []; [7]]%Z gs.
Proof.
  exists (map dpd_stat [[3; 7; 3]; []; [7]]%Z). cbn [map].
  assert (K : forall l, List.Forall (fun v => v = 3 \/ v = 7)%Z l -> short l -> drawn_from (fun v => v <> OTHER /\ dp_betas ex_sh !! v <> None) l).
  { intros l H Hs. split; [exact Hs|]. eapply List.Forall_impl; [|exact H]. intros v [->| ->]; (split; [discriminate|vm_compute; discriminate]). }
  repeat (constructor; [split; [|apply dpd_filled]; apply K; try (unfold short; cbn; lia); repeat constructor; lia|]). constructor.
Qed.

Lemma order_bsum (sh : dpd_shared R) order : Permutation order (map_to_list (dp_betas sh)) -> rsum (map snd order) = bsum sh.
Proof. intro P. exact (msum_order (fun _ b => b) _ _ P). Qed.

(** ** C39.  A shared loaded from a well-formed message and then changed by any legal history. *)
(** Its betas belong exactly to the counted values. *)
Theorem C39_shared_tracks_values : forall lg dl m l0 sh0 ops l n sh,
  good_message (dm_values m) (dm_betas m) (dm_counts m) l0 -> dps_load (N:=NumR lg) dl m = Ok sh0 ->
  dhistory l0 ops l n -> dps_run (N:=NumR lg) dl sh0 ops = Ok sh ->
  (forall v, dp_betas sh !! v <> None <-> In v l) /\
  (forall v, ctr_get_count (dp_counts sh) v = Z.of_nat (count_occ BinInt.Z.eq_dec l v)) /\
  ctr_get_total (dp_counts sh) = Ok (Z.of_nat (length l)) /\
  (forall v b, dp_betas sh !! v = Some b -> 0 < b) /\ 0 <= dp_beta0 sh /\
  dp_gamma sh = dm_gamma m /\ dp_alpha sh = dm_alpha m.
Proof.
  intros lg dl m l0 sh0 ops l n sh Hm Hl Hh Hr.
  destruct (load_ok lg dl m l0 Hm) as [A B]. destruct (Rle_lt_dec (rsum (dm_betas m)) (1 + / 10000)) as [Hs|Hs]; [|rewrite (B Hs) in Hl; discriminate].
  destruct (A Hs) as (sh1 & E & G & G1 & G2 & G3 & G4 & _). rewrite E in Hl. injection Hl as <-.
  assert (H0 : 0 <= dp_beta0 sh1) by (rewrite G3; apply Rmax_l).
  pose proof (run_mass lg dl ops sh1 l0 l n G H0 Hh) as X. rewrite Hr in X. destruct X as (C & D & _ & E1 & E2 & _ & _).
  split; [apply (cv_keys _ _ C)|]. rewrite (cv_counts _ _ C). split; [apply dmap_get|]. split; [reflexivity|].
  split; [apply (cv_pos _ _ C)|]. split; [exact D|]. split; congruence.
Qed.
Print Assumptions C39_shared_tracks_values.

(** While some mass is unallocated no legal call fails. *)
Theorem C39_shared_never_fails : forall lg dl m l0 sh0 ops l n,
  good_message (dm_values m) (dm_betas m) (dm_counts m) l0 -> dps_load (N:=NumR lg) dl m = Ok sh0 ->
  0 < dp_beta0 sh0 -> dhistory l0 ops l n ->
  exists sh, dps_run (N:=NumR lg) dl sh0 ops = Ok sh /\ 0 < dp_beta0 sh.
Proof.
  intros lg dl m l0 sh0 ops l n Hm Hl H0 Hh.
  destruct (load_ok lg dl m l0 Hm) as [A B]. destruct (Rle_lt_dec (rsum (dm_betas m)) (1 + / 10000)) as [Hs|Hs]; [|rewrite (B Hs) in Hl; discriminate].
  destruct (A Hs) as (sh1 & E & G & _). rewrite E in Hl. injection Hl as <-.
  pose proof (run_mass lg dl ops sh1 l0 l n G (Rlt_le _ _ H0) Hh) as X.
  destruct (dps_run _ sh1 ops) as [sh| |]; [|lra|contradiction]. exists sh. split; [reflexivity|]. now apply X.
Qed.
Print Assumptions C39_shared_never_fails.

(** Full statement: the mass beta0 + sum of betas stays equal to 1.  Proved: it stays between 1 and
    1 plus MIN_BETA per new value.  Missing (false): equality, see the refutation. *)
Theorem C39_mass_partial : forall lg dl m l0 sh0 ops l n sh order,
  good_message (dm_values m) (dm_betas m) (dm_counts m) l0 -> dps_load (N:=NumR lg) dl m = Ok sh0 ->
  rsum (dm_betas m) <= 1 ->
  dhistory l0 ops l n -> dps_run (N:=NumR lg) dl sh0 ops = Ok sh ->
  Permutation order (map_to_list (dp_betas sh)) ->
  1 <= dp_beta0 sh + rsum (map snd order) <= 1 + INR n / 1000000.
Proof.
  intros lg dl m l0 sh0 ops l n sh order Hm Hl Hone Hh Hr P.
  destruct (load_ok lg dl m l0 Hm) as [A B]. destruct (A ltac:(lra)) as (sh1 & E & G & G1 & G2 & G3 & G4 & _). rewrite E in Hl. injection Hl as <-.
  rewrite Rmax_right in G3 by lra.
  pose proof (run_mass lg dl ops sh1 l0 l n G ltac:(lra) Hh) as X. rewrite Hr in X. destruct X as (C & D & _ & E1 & E2 & F1 & F2).
  rewrite (order_bsum _ _ P).
  rewrite G4, G3 in *. unfold MB in F2. lra.
Qed.
Print Assumptions C39_mass_partial.

(** Equality holds as long as add_value does not clamp. *)
Theorem C39_mass_without_clamp : forall lg dl m l0 sh0 ops l n sh order,
  good_message (dm_values m) (dm_betas m) (dm_counts m) l0 -> dps_load (N:=NumR lg) dl m = Ok sh0 ->
  rsum (dm_betas m) < 1 ->
  dhistory l0 ops l n -> roomy (N:=NumR lg) dl sh0 ops -> dps_run (N:=NumR lg) dl sh0 ops = Ok sh ->
  Permutation order (map_to_list (dp_betas sh)) ->
  dp_beta0 sh + rsum (map snd order) = 1.
Proof.
  intros lg dl m l0 sh0 ops l n sh order Hm Hl Hone Hh Hrm Hr P.
  destruct (load_ok lg dl m l0 Hm) as [A B]. destruct (A ltac:(lra)) as (sh1 & E & G & G1 & G2 & G3 & G4 & _). rewrite E in Hl. injection Hl as <-.
  rewrite Rmax_right in G3 by lra.
  rewrite (order_bsum _ _ P).
  eapply (run_exact lg dl ops sh1 l0 l n sh); eauto; lra.
Qed.
Print Assumptions C39_mass_without_clamp.

(** The message without values: everything unallocated. *)
Definition empty_message : dps_msg R := mk_dps_msg 1 (/ 2) [] [] [].
Lemma empty_message_good : good_message (dm_values empty_message) (dm_betas empty_message) (dm_counts empty_message) [].
Proof. split; try reflexivity; try constructor; cbn; try tauto. unfold short; cbn; lia. Qed.
Lemma empty_message_loads lg dl : exists sh0, dps_load (N:=NumR lg) dl empty_message = Ok sh0 /\
  counts_values sh0 [] /\ dp_beta0 sh0 = 1 /\ bsum sh0 = 0.
Proof.
  destruct (load_ok lg dl empty_message [] empty_message_good) as [A _]. cbn [dm_betas empty_message rsum] in A.
  destruct (A ltac:(lra)) as (sh & E & G & _ & _ & G3 & G4 & _). exists sh. split; [exact E|]. split; [exact G|].
  split; [rewrite G3; rewrite Rmax_right; lra|exact G4].
Qed.

(** One value whose sample is 1 - 10^-7: the clamp creates mass 9 * 10^-7. *)
Theorem C39_mass_refuted : forall lg dl, exists m l0 sh0 ops l n sh,
  good_message (dm_values m) (dm_betas m) (dm_counts m) l0 /\ dps_load (N:=NumR lg) dl m = Ok sh0 /\
  dp_beta0 sh0 + rsum (map snd (map_to_list (dp_betas sh0))) = 1 /\
  dhistory l0 ops l n /\ dps_run (N:=NumR lg) dl sh0 ops = Ok sh /\
  dp_beta0 sh + rsum (map snd (map_to_list (dp_betas sh))) = 1 + 9 / 10000000.
Proof.
  intros lg dl. destruct (empty_message_loads lg dl) as (sh0 & E & G & B0 & S0).
  destruct (dps_add_new lg dl sh0 [] 5%Z (9999999 / 10000000) G) as (E1 & G1 & S1);
    [intros []|discriminate|unfold short; cbn; lia|lra|lra|].
  do 7 eexists. split; [apply empty_message_good|]. split; [exact E|]. split; [|split; [|split]].
  - change (dp_beta0 sh0 + bsum sh0 = 1). lra.
  - apply (dh_new [] 5%Z (9999999 / 10000000) [] [5%Z] 0); [intros []|discriminate|lra|unfold short; cbn; lia|constructor].
  - cbn [dps_run dps_run1]. rewrite E1. reflexivity.
  - match goal with |- dp_beta0 ?s + _ = _ => change (dp_beta0 s + bsum s = 1 + 9 / 10000000); unfold bsum in *; rewrite S1; cbn [dp_beta0] end.
    rewrite S0, B0. rewrite Rmax_left; unfold MB; lra.
Qed.
Print Assumptions C39_mass_refuted.

Example C39_nonvacuous :
  good_message [3; 7]%Z [/ 2; / 4] [2; 1]%Z [3; 3; 7]%Z /\
  dhistory [3; 3; 7]%Z [DAdd 9 (/ 2); DRem 7; DAdd 3 1]%Z [3; 9; 3; 3]%Z 1.
Proof.
  split.
  - split; try reflexivity.
    + repeat constructor; cbn; lia. + cbn. lia. + repeat constructor; lra. + repeat constructor; lia. + unfold short; cbn; lia.
  - apply dh_new; [cbn; lia|discriminate|lra|unfold short; cbn; lia|].
    apply (dh_rem [9; 3; 3]%Z 7%Z []); [discriminate|]. cbn [app].
    apply dh_old; [cbn; tauto|discriminate|lra|unfold short; cbn; lia|]. constructor.
Qed.

(** ** C40: realize.  Full statement: for every reachable shared.  Proved: from every reachable shared with ids below 2^32 - 10002, whatever the sampler
    answers: it stops after at most 10000 draws, no mass is left, the old values keep their betas
    and counts, every new value is new and counted once, the mass is kept up to clamping, and there
    are at most 10000 values (one more than before if there were 10000 or more already).  Unallocated
    mass goes to a single new value exactly when it is at most 10^-4 or there is no room for more.  Missing (false): ids close to
    2^32 and the cap for larger shareds, see the refutations. *)
Theorem C40_realize_partial : forall lg dl m l0 sh0 ops l n sh us,
  good_message (dm_values m) (dm_betas m) (dm_counts m) l0 -> dps_load (N:=NumR lg) dl m = Ok sh0 ->
  dhistory l0 ops l n -> dps_run (N:=NumR lg) dl sh0 ops = Ok sh ->
  List.Forall (fun v => 0 <= v < 4294967296 - 10002)%Z l -> (Z.of_nat (length l) + 10000 <= 2147483647)%Z ->
  List.Forall (fun u => 0 < u <= 1) us -> (10000 <= Z.of_nat (length us))%Z ->
  exists sh' news, dps_realize (N:=NumR lg) dl sh us = Some (Ok sh') /\
    dp_beta0 sh' = 0 /\
    (forall v, In v l -> dp_betas sh' !! v = dp_betas sh !! v /\
       ctr_get_count (dp_counts sh') v = ctr_get_count (dp_counts sh) v) /\
    (forall v, dp_betas sh' !! v <> None <-> In v l \/ In v news) /\
    (forall v, In v news -> ~ In v l /\ v <> OTHER /\ ctr_get_count (dp_counts sh') v = 1%Z) /\
    (forall v b, dp_betas sh' !! v = Some b -> 0 < b) /\
    (let mass := dp_beta0 sh + rsum (map snd (map_to_list (dp_betas sh))) in
     mass <= rsum (map snd (map_to_list (dp_betas sh'))) <= mass + INR (length news) / 1000000) /\
    (Z.of_nat (size (dp_betas sh')) <= Z.max 10000 (Z.of_nat (size (dp_betas sh)) + 1))%Z /\
    dp_gamma sh' = dp_gamma sh /\ dp_alpha sh' = dp_alpha sh /\
    (0 < dp_beta0 sh -> ((size (dp_betas sh') = size (dp_betas sh) + 1)%nat <->
       dp_beta0 sh <= / 10000 \/ (9999 <= Z.of_nat (size (dp_betas sh)))%Z)).
Proof.
  intros lg dl m l0 sh0 ops l n sh us Hm Hl Hh Hr Hv Hs Hu Hn.
  destruct (load_ok lg dl m l0 Hm) as [A B]. destruct (Rle_lt_dec (rsum (dm_betas m)) (1 + / 10000)) as [Hs'|Hs']; [|rewrite (B Hs') in Hl; discriminate].
  destruct (A Hs') as (sh1 & E & G & G1 & G2 & G3 & G4 & _). rewrite E in Hl. injection Hl as <-.
  assert (H0 : 0 <= dp_beta0 sh1) by (rewrite G3; apply Rmax_l).
  pose proof (run_mass lg dl ops sh1 l0 l n G H0 Hh) as X. rewrite Hr in X. destruct X as (C & D & _).
  rewrite List.Forall_forall in Hv.
  set (us1 := firstn (Z.to_nat 10000) us).
  assert (L1 : Z.of_nat (length us1) = 10000%Z) by (unfold us1; rewrite firstn_length; lia).
  destruct (realize_ok lg dl sh l us1 C D) as (sh' & news & E' & K1 & K2 & K3 & K4 & K5 & K6 & K7 & K8 & K9 & K10 & K11 & K12).
  - unfold us1. apply Forall_take. exact Hu.
  - intros X. rewrite X in L1. discriminate.
  - lia.
  - intros v Hin. apply Hv in Hin. unfold OTHER. lia.
  - lia.
  - exists sh', news. split; [|split; [exact K1|split; [|split; [|split; [|split; [|split; [|split; [|split; [|split]]]]]]]]].
    + rewrite <- (firstn_skipn (Z.to_nat 10000) us). apply realize_more. exact E'.
    + intros v Hin. split; [now apply K7|]. rewrite (cv_counts _ _ K4), (cv_counts _ _ C), !dmap_get, zcount_app.
      rewrite (zcount_absent news); [lia|]. intro Hx. now apply (K6 v).
    + intro v. rewrite (cv_keys _ _ K4 v), in_app_iff. tauto.
    + intros v Hin. split; [now apply K6|]. split.
      * intros ->. apply (cv_other _ _ K4), in_app_iff. now left.
      * rewrite (cv_counts _ _ K4), dmap_get, zcount_app, (zcount_absent l) by now apply K6.
        unfold zcount. rewrite (proj1 (NoDup_count_occ' BinInt.Z.eq_dec news) K5 v Hin). reflexivity.
    + apply (cv_pos _ _ K4).
    + cbv zeta. unfold MB in K8. fold (bsum sh) (bsum sh').
      change (rsum (map snd (map_to_list (dp_betas sh)))) with (bsum sh). change (rsum (map snd (map_to_list (dp_betas sh')))) with (bsum sh'). lra.
    + exact K11.
    + exact K2.
    + exact K3.
    + intro Hb. rewrite <- (K12 Hb). lia.
Qed.
Print Assumptions C40_realize_partial.

(** With the value 2^32 - 2 present the first "new" value is the reserved id OTHER: the call fails at
    debug level 1 and above, and in a release build OTHER becomes an ordinary value. *)
Definition top_sh : dpd_shared R := mk_dpd_shared 1 1 (/ 2) {[ 4294967294%Z := / 2 ]} (dpd_stat [4294967294%Z]).
Theorem C40_realize_new_values_refuted : forall lg,
  (forall dl, exists m l, good_message (dm_values m) (dm_betas m) (dm_counts m) l /\ dps_load (N:=NumR lg) dl m = Ok top_sh) /\
  dps_realize (N:=NumR lg) 1 top_sh [1; 1] = Some Fail /\
  exists sh', dps_realize (N:=NumR lg) 0 top_sh [1; 1] = Some (Ok sh') /\ dp_betas sh' !! OTHER <> None.
Proof.
  intro lg.
  assert (Env : dps_new_value (dp_betas top_sh) = OTHER).
  { unfold dps_new_value. cbn [top_sh dp_betas]. rewrite map_to_list_singleton. reflexivity. }
  assert (Esz : size (dp_betas top_sh) = 1%nat) by apply map_size_singleton.
  assert (Hloop : forall dl us u, dps_realize_loop (N:=NumR lg) dl top_sh OTHER (u :: us) =
    match dps_add (N:=NumR lg) dl top_sh OTHER u with
    | Ok sh' => dps_realize_loop (N:=NumR lg) dl sh' (u32 (OTHER + 1)) us | Fail => Some Fail | UB => Some UB end).
  { intros dl us u. cbn [dps_realize_loop]. rewrite Esz. cbn [nltb NumR].
    rewrite rltb_true by (unfold dps_min_beta0, top_sh; cbn [nlit NumR dp_beta0]; lra). reflexivity. }
  assert (Hctr : forall l v, ~ In v l -> short (v :: l) -> ctr_add (dpd_stat l) v 1 = Ok (dpd_stat (v :: l), 1%Z)).
  { intros l v Hv Hs. unfold short in Hs. cbn [length] in Hs.
    rewrite (dpd_ctr_add l v 1) with (l' := v :: l); [|lia|unfold short; lia|lia|apply zcount_cons|cbn [length]; lia].
    now rewrite (zcount_absent _ _ Hv). }
  split; [|split].
  - assert (Hcv : counts_values top_sh [4294967294%Z]).
    { split; [reflexivity| | | |unfold short; cbn; lia].
    + intro v. cbn [top_sh dp_betas]. rewrite lookup_singleton_None. cbn. split; [intro X|intros [<-|[]] X; congruence].
      left. destruct (BinInt.Z.eq_dec 4294967294 v); [assumption|]. exfalso. now apply X.
    + intros v b. cbn [top_sh dp_betas]. rewrite lookup_singleton_Some. intros [_ <-]. lra.
    + cbn. unfold OTHER. lia. }
    intro dl. destruct (dump_wf top_sh _ _ Hcv (Permutation_refl _)) as (l & _ & Hg & _).
    exists (dps_dump top_sh (map_to_list (dp_betas top_sh))), l. split; [exact Hg|].
    assert (Hb : bsum top_sh = / 2).
    { unfold bsum, top_sh. cbn [dp_betas]. rewrite <- insert_empty, msum_insert by apply lookup_empty. rewrite msum_empty. lra. }
    rewrite (proj1 (dump_load lg dl top_sh _ _ Hcv (Permutation_refl _))) by (rewrite Hb; lra).
    rewrite Hb, Rmax_right by lra. unfold top_sh. cbn [dp_gamma dp_alpha dp_betas dp_counts]. do 2 f_equal. lra.
  - unfold dps_realize. rewrite Env, Hloop. unfold dps_add. rewrite Z.eqb_refl. reflexivity.
  - unfold dps_realize. rewrite Env, Hloop. unfold dps_add at 1. cbn [dassert_at Nat.leb obind].
    unfold top_sh. cbn [dp_counts dp_beta0 dp_gamma dp_alpha dp_betas]. rewrite Hctr by (try (unfold short; cbn; lia); cbn; unfold OTHER; lia). cbn [obind fst snd].
    change (1 =? 1)%Z with true. cbn iota. cbn [nltb nof NumR dp_beta0]. rewrite rltb_true by lra. cbn [dassert obind].
    rewrite sp_add_fresh by (cbn [top_sh dp_betas]; apply lookup_singleton_None; discriminate). cbn [obind].
    cbn [dps_realize_loop]. cbn [nltb NumR dp_beta0 dp_betas dp_gamma dp_alpha dp_counts]. rewrite fmax_R.
    assert (Eb : Rmax (min_beta (N:=NumR lg)) (/ 2 - / 2 * 1) = MB).
    { rewrite Rmax_left; unfold min_beta, MB; cbn [nlit NumR]; lra. }
    cbn [nsub nmul NumR]. rewrite Eb. rewrite (rltb_false (dps_min_beta0 (N:=NumR lg)) MB) by (unfold dps_min_beta0, MB; cbn [nlit NumR]; lra).
    rewrite andb_false_r. unfold dps_realize_end. cbn [nltb nof NumR dp_beta0]. rewrite rltb_true by apply MB_pos.
    unfold dps_add. cbn [dassert_at Nat.leb obind dp_counts].
    change (u32 (OTHER + 1)) with 0%Z. rewrite Hctr by (try (unfold short; cbn; lia); cbn; unfold OTHER; lia). cbn [obind fst snd].
    change (1 =? 1)%Z with true. cbn iota. cbn [nltb nof NumR dp_beta0]. rewrite rltb_true by apply MB_pos. cbn [dassert obind dp_betas].
    rewrite sp_add_fresh.
    2:{ rewrite lookup_insert_ne by discriminate. apply lookup_singleton_None. discriminate. }
    cbn [obind dp_betas]. rewrite (sp_get_some _ _ 0%Z _ (lookup_insert _ _ _)). cbn [obind].
    eexists. split; [reflexivity|]. cbn [dp_betas]. rewrite !lookup_insert_ne by discriminate. rewrite lookup_insert. discriminate.
Qed.
Print Assumptions C40_realize_new_values_refuted.

(** The size cap: a shared that already holds 10000 values (the cap) and has unallocated mass gets
    one more. *)
Theorem C40_realize_cap_refuted : forall lg dl us, List.Forall (fun u => 0 < u <= 1) us -> (10000 <= Z.of_nat (length us))%Z ->
  exists m l0 sh sh', good_message (dm_values m) (dm_betas m) (dm_counts m) l0 /\ dps_load (N:=NumR lg) dl m = Ok sh /\
    Z.of_nat (size (dp_betas sh)) = 10000%Z /\ dps_realize (N:=NumR lg) dl sh us = Some (Ok sh') /\
    Z.of_nat (size (dp_betas sh')) = 10001%Z.
Proof.
  intros lg dl us Hu Hn.
  set (N0 := Z.to_nat 10000). set (vs := seqZ 0 10000).
  assert (Lv : length vs = N0) by (unfold vs; apply seqZ_length).
  set (m := mk_dps_msg 1 1 vs (repeat (/ 20000) N0) (repeat 1%Z N0)).
  assert (Hin : forall v, In v vs -> (0 <= v < 10000)%Z) by (intros v Hv; apply elem_of_list_In, elem_of_seqZ in Hv; lia).
  assert (Hmv : forall k, msg_values k (repeat 1%Z (length k)) = k).
  { induction k as [|v k IH]; cbn [length repeat msg_values]; [reflexivity|]. rewrite IH. reflexivity. }
  assert (Hr : forall k x, rsum (repeat x k) = INR k * x).
  { induction k as [|k IH]; intro x; [cbn [repeat rsum INR]; lra|]. rewrite S_INR. cbn [repeat rsum]. rewrite IH. lra. }
  assert (Hg : good_message (dm_values m) (dm_betas m) (dm_counts m) vs).
  { cbn [m dm_values dm_betas dm_counts]. split.
    - now rewrite repeat_length. - now rewrite repeat_length. - apply NoDup_ListNoDup, NoDup_seqZ.
    - intro X. apply Hin in X. lia.
    - apply List.Forall_forall. intros b Hb. apply repeat_spec in Hb. subst b. lra.
    - apply List.Forall_forall. intros c Hc. apply repeat_spec in Hc. lia.
    - rewrite <- Lv. symmetry. apply Hmv.
    - unfold short. rewrite Lv. unfold N0. lia. }
  assert (Es : rsum (dm_betas m) = / 2).
  { cbn [m dm_betas]. rewrite Hr. unfold N0. rewrite INR_IZR_INZ, Z2Nat.id by lia. lra. }
  destruct (load_ok lg dl m vs Hg) as [A _]. rewrite Es in A. destruct (A ltac:(lra)) as (sh & E & G & _ & _ & G3 & _).
  rewrite Rmax_right in G3 by lra.
  assert (Esz : Z.of_nat (size (dp_betas sh)) = 10000%Z).
  { change (size (dp_betas sh)) with (length (map_to_list (dp_betas sh))). rewrite <- (map_length fst).
    rewrite (Permutation_length (l' := vs)); [rewrite Lv; unfold N0; lia|].
    apply Permutation.NoDup_Permutation; [apply (nodup_keys _ _ (Permutation_refl _))|apply NoDup_ListNoDup, NoDup_seqZ|].
    intro v. rewrite (in_keys _ _ _ (Permutation_refl _)). apply (cv_keys _ _ G). }
  set (us1 := firstn (Z.to_nat 10000) us).
  assert (L1 : Z.of_nat (length us1) = 10000%Z) by (unfold us1; rewrite firstn_length; lia).
  destruct (realize_ok lg dl sh vs us1 G) as (sh' & news & E' & K1 & K2 & K3 & K4 & K5 & K6 & K7 & K8 & K9 & K10 & K11 & K12).
  - lra. - unfold us1. apply Forall_take. exact Hu. - intros X. rewrite X in L1. discriminate. - lia.
  - intros v Hv. apply Hin in Hv. unfold OTHER. lia.
  - rewrite Lv. unfold N0. lia.
  - exists m, vs, sh, sh'. split; [exact Hg|]. split; [exact E|]. split; [exact Esz|]. split.
    + rewrite <- (firstn_skipn (Z.to_nat 10000) us). apply realize_more. exact E'.
    + assert (news <> []) by (apply K10; lra). destruct news; [congruence|]. cbn [length] in K9. lia.
Qed.
Print Assumptions C40_realize_cap_refuted.

Example C40_nonvacuous : let us := repeat (/ 2) (Z.to_nat 10000) in
  List.Forall (fun v => 0 <= v < 4294967296 - 10002)%Z [3; 9; 3; 3]%Z /\
  List.Forall (fun u => 0 < u <= 1) us /\ (10000 <= Z.of_nat (length us))%Z.
Proof.
  cbv zeta. split; [repeat constructor; lia|]. split.
  - apply List.Forall_forall. intros u Hu. apply repeat_spec in Hu. subst. lra.
  - rewrite repeat_length. lia.
Qed.

(** ** C42.  Full statement: for every reachable shared, load accepts the dump and restores gamma,
    alpha, betas and counts.  Proved: it does whenever the betas sum to at most 1 + 10^-4, whatever
    the visiting order of the dump, and recomputes beta0 as 1 - sum; beyond that it fails.  Missing
    (false): acceptance in general, see the refutation. *)
Theorem C42_dump_load_partial : forall lg dl m l0 sh0 ops l n sh order,
  good_message (dm_values m) (dm_betas m) (dm_counts m) l0 -> dps_load (N:=NumR lg) dl m = Ok sh0 ->
  dhistory l0 ops l n -> dps_run (N:=NumR lg) dl sh0 ops = Ok sh ->
  Permutation order (map_to_list (dp_betas sh)) ->
  let total := rsum (map snd (map_to_list (dp_betas sh))) in
  (total <= 1 + / 10000 -> exists sh', dps_load (N:=NumR lg) dl (dps_dump sh order) = Ok sh' /\
     dp_gamma sh' = dp_gamma sh /\ dp_alpha sh' = dp_alpha sh /\ dp_betas sh' = dp_betas sh /\
     dp_counts sh' = dp_counts sh /\ dp_beta0 sh' = Rmax 0 (1 - total)) /\
  (1 + / 10000 < total -> dps_load (N:=NumR lg) dl (dps_dump sh order) = Fail).
Proof.
  intros lg dl m l0 sh0 ops l n sh order Hm Hl Hh Hr P total.
  destruct (load_ok lg dl m l0 Hm) as [A B]. destruct (Rle_lt_dec (rsum (dm_betas m)) (1 + / 10000)) as [Hs'|Hs']; [|rewrite (B Hs') in Hl; discriminate].
  destruct (A Hs') as (sh1 & E & G & G1 & G2 & G3 & G4 & _). rewrite E in Hl. injection Hl as <-.
  assert (H0 : 0 <= dp_beta0 sh1) by (rewrite G3; apply Rmax_l).
  pose proof (run_mass lg dl ops sh1 l0 l n G H0 Hh) as X. rewrite Hr in X. destruct X as (C & D & _).
  destruct (dump_load lg dl sh l order C P) as [K1 K2]. split; [|exact K2].
  intro Ht. eexists. split; [apply K1, Ht|]. repeat split.
Qed.
Print Assumptions C42_dump_load_partial.

(** When nothing was clamped and some mass is left the whole state is restored, beta0 included. *)
Theorem C42_round_trip_without_clamp : forall lg dl m l0 sh0 ops l n sh order,
  good_message (dm_values m) (dm_betas m) (dm_counts m) l0 -> dps_load (N:=NumR lg) dl m = Ok sh0 ->
  rsum (dm_betas m) < 1 ->
  dhistory l0 ops l n -> roomy (N:=NumR lg) dl sh0 ops -> dps_run (N:=NumR lg) dl sh0 ops = Ok sh ->
  Permutation order (map_to_list (dp_betas sh)) ->
  dps_load (N:=NumR lg) dl (dps_dump sh order) = Ok sh.
Proof.
  intros lg dl m l0 sh0 ops l n sh order Hm Hl Hone Hh Hrm Hr P.
  pose proof (C39_mass_without_clamp lg dl m l0 sh0 ops l n sh _ Hm Hl Hone Hh Hrm Hr P) as Hmass.
  rewrite (order_bsum _ _ P) in Hmass.
  destruct (load_ok lg dl m l0 Hm) as [A B]. destruct (A ltac:(lra)) as (sh1 & E & G & G1 & G2 & G3 & G4 & _). rewrite E in Hl. injection Hl as <-.
  assert (H0 : 0 <= dp_beta0 sh1) by (rewrite G3; apply Rmax_l).
  pose proof (run_mass lg dl ops sh1 l0 l n G H0 Hh) as X. rewrite Hr in X. destruct X as (C & D & _).
  rewrite (proj1 (dump_load lg dl sh l order C P)) by lra. rewrite Rmax_right by lra.
  destruct sh as [ga al b0 bs cs]. cbn [dp_gamma dp_alpha dp_beta0 dp_betas dp_counts] in *. do 2 f_equal. lra.
Qed.
Print Assumptions C42_round_trip_without_clamp.

(** 102 new values whose samples are 1 (the sampler concentrates there for small gamma): each later
    one gets MIN_BETA out of nothing, the betas sum to 1 + 1.01 * 10^-4 and the dump is rejected. *)
Theorem C42_dump_load_refuted : forall lg dl, exists m l0 sh0 ops l n sh,
  good_message (dm_values m) (dm_betas m) (dm_counts m) l0 /\ dps_load (N:=NumR lg) dl m = Ok sh0 /\
  dhistory l0 ops l n /\ dps_run (N:=NumR lg) dl sh0 ops = Ok sh /\
  forall order, Permutation order (map_to_list (dp_betas sh)) -> dps_load (N:=NumR lg) dl (dps_dump sh order) = Fail.
Proof.
  intros lg dl. destruct (empty_message_loads lg dl) as (sh0 & E & G & B0 & S0).
  destruct (dps_add_new lg dl sh0 [] 0%Z 1 G) as (E1 & G1 & S1);
    [intros []|discriminate|unfold short; cbn; lia|lra|lra|].
  match type of G1 with counts_values ?x _ => set (sh1 := x) in * end.
  destruct (run_ones lg dl (seqZ 1 101) sh1 [0%Z] G1) as (sh & E2 & S2 & G2 & H2).
  - cbn [sh1 dp_beta0]. rewrite Rmax_left; [reflexivity|]. unfold MB. lra.
  - apply NoDup_ListNoDup, NoDup_seqZ.
  - intros v Hv. apply elem_of_list_In, elem_of_seqZ in Hv. unfold OTHER. cbn. lia.
  - unfold short. rewrite app_length, seqZ_length. cbn. lia.
  - exists empty_message, [], sh0, (DAdd 0 1 :: map (fun v => DAdd v 1) (seqZ 1 101)). do 2 eexists. exists sh.
    split; [apply empty_message_good|]. split; [exact E|]. split; [|split].
    + apply dh_new; [intros []|discriminate|lra|unfold short; cbn; lia|exact H2].
    + cbn [dps_run dps_run1]. rewrite E1. exact E2.
    + intros order P. apply (dump_load lg dl sh _ order G2 P). rewrite S2, seqZ_length. unfold bsum in *. rewrite S1, S0, B0.
      rewrite INR_IZR_INZ. change (Z.of_nat (Z.to_nat 101)) with 101%Z. unfold MB. lra.
Qed.
Print Assumptions C42_dump_load_refuted.
