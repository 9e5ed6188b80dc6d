(** Property C41: protobuf_dump followed by protobuf_load restores every shared and group.
    Property C68: what loading does with messages that no dump produced. *)
From Coq Require Import Permutation Reals Lra Lia.
From Verif.spec Require Import GroupSpec GaussSpec NiwSpec.
From Verif.model Require Import Base Num NumR NumTerm Component BB GP BNB NICH DD Sparse DPD NIW PitmanYor Proto.
From Verif.proof Require Import BaseProof GroupProof DDProof NIWProof ProtoProof.
From stdpp Require Import gmap.
From Verif.proof Require Import MapSum DPDProof DPDShared DPDProto.
Local Open Scope Z_scope.

(** ** C41, groups.  [ops]: any history of add, remove, add_repeated and merge calls, data debt
    included; [F]: any arithmetic. *)
Theorem C41_bb_group_round_trip : forall (F : Type) dl (sh : bb_shared F) ops g,
  grun (BB F) dl sh (c_init (BB F) sh) ops = Ok g -> bb_load (bb_dump g) = g.
Proof. intros F dl sh ops g H. apply bb_trip. exact (bb_group_range dl sh ops g H). Qed.
Print Assumptions C41_bb_group_round_trip.
Theorem C41_gp_group_round_trip : forall (F : Type) (N : Num F) dl (sh : gp_shared F) ops g,
  grun (GP F) dl sh (c_init (GP F) sh) ops = Ok g -> gp_load (gp_dump g) = g.
Proof. intros F N dl sh ops g H. apply gp_trip. exact (gp_group_range dl sh ops g H). Qed.
Print Assumptions C41_gp_group_round_trip.
Theorem C41_bnb_group_round_trip : forall (F : Type) dl (sh : bnb_shared F) ops g,
  grun (BNB F) dl sh (c_init (BNB F) sh) ops = Ok g -> bnb_load (bnb_dump g) = g.
Proof. intros F dl sh ops g H. apply bnb_trip. exact (bnb_group_range dl sh ops g H). Qed.
Print Assumptions C41_bnb_group_round_trip.
Theorem C41_nich_group_round_trip : forall (F : Type) (N : Num F) dl (sh : nich_shared F) ops g,
  grun (NICH F) dl sh (c_init (NICH F) sh) ops = Ok g -> nich_load (nich_dump g) = g.
Proof. intros F N dl sh ops g H. apply nich_trip. exact (nich_group_range dl sh ops g H). Qed.
Print Assumptions C41_nich_group_round_trip.

(** A Beta-Bernoulli group in debt (one head too few): the field holds 2^64 - 1. *)
Example C41_bb_nonvacuous : forall sh : bb_shared unit,
  grun (BB unit) 1 sh (c_init (BB unit) sh) [GAdd false; GRem true; GMerge [false]] = Ok (mk_bb (-1) 2) /\
  bb_dump (mk_bb (-1) 2) = mk_bb_msg 18446744073709551615 2 /\
  bb_load (mk_bb_msg 18446744073709551615 2) = mk_bb (-1) 2.
Proof. intro sh. repeat split; reflexivity. Qed.
Example C41_gp_nonvacuous : exists g,
  grun (GP term (N:=NumTerm)) 1 (mk_gp_shared (TOf 1) (TOf 1)) (c_init (GP term (N:=NumTerm)) (mk_gp_shared (TOf 1) (TOf 1))) [GAdd 4; GRep 2 3; GRem 2] = Ok g /\
  gp_count g = 3 /\ gp_sum g = 8.
Proof. eexists. split; [reflexivity|]. vm_compute. auto. Qed.

(** ** C41, Dirichlet-discrete group.  count_sum is not in the message; it is added up again. *)
Theorem C41_dd_group_round_trip : forall (F : Type) dl (sh : dd_shared F) max_dim ops l g,
  (dd_dim sh <= max_dim)%nat ->
  ghistory (dd_op (dd_dim sh)) (in_dim (dd_dim sh)) [] ops l ->
  grun (DD F) dl sh (c_init (DD F) sh) ops = Ok g ->
  dd_load max_dim (dd_dump g) = Ok g.
Proof.
  intros F dl sh max_dim ops l g Hd H E. rewrite (dd_history dl sh ops l H) in E. injection E as <-.
  apply dd_load_tally; [exact Hd|]. eapply ghistory_fits; [|exact H]. split; [unfold short; cbn; lia|constructor].
Qed.
Print Assumptions C41_dd_group_round_trip.

Example C41_dd_nonvacuous : exists g,
  grun (DD term) 1 (mk_dd_shared [TOf 1; TOf 1; TOf 2]) (c_init (DD term) (mk_dd_shared [TOf 1; TOf 1; TOf 2])) [GAdd 2; GRep 0 3; GRem 0] = Ok g /\
  dd_dump g = [2; 0; 1] /\ dd_load 256 [2; 0; 1] = Ok g.
Proof. eexists. split; [reflexivity|]. split; reflexivity. Qed.

(** After a merge the object and its round trip differ: merge does not update count_sum (C21), the
    load recomputes it.  What is loaded is the group of the pooled data. *)
Theorem C41_dd_merge_repaired_by_round_trip : forall (F : Type) dl (sh : dd_shared F) max_dim xs ys g h m p,
  (dd_dim sh <= max_dim)%nat -> in_dim (dd_dim sh) (ys ++ xs) ->
  c_filled (DD F) dl sh xs = Ok g -> c_filled (DD F) dl sh ys = Ok h -> c_merge (DD F) dl sh g h = Ok m ->
  c_filled (DD F) dl sh (ys ++ xs) = Ok p ->
  dd_load max_dim (dd_dump m) = Ok p.
Proof.
  intros F dl sh max_dim xs ys g h m p Hd H Eg Eh Em Ep.
  assert (Hx : in_dim (dd_dim sh) xs) by (eapply (fits_app_r (in_dim (dd_dim sh)) ys); [exact (in_dim_tail _)|exact H]).
  assert (Hy : in_dim (dd_dim sh) ys).
  { eapply (fits_app_r (in_dim (dd_dim sh)) xs); [exact (in_dim_tail _)|]. eapply in_dim_perm; [|exact H]. apply Permutation_app_comm. }
  rewrite (dd_filled dl sh xs Hx) in Eg. rewrite (dd_filled dl sh ys Hy) in Eh. rewrite (dd_filled dl sh _ H) in Ep.
  injection Eg as <-. injection Eh as <-. injection Ep as <-. rewrite (dd_merge_stat dl sh xs ys H) in Em. injection Em as <-.
  now apply dd_load_tally.
Qed.
Print Assumptions C41_dd_merge_repaired_by_round_trip.
Theorem C41_dd_group_round_trip_refuted : exists (sh : dd_shared R) ops m,
  grun (DD R) 1 sh (c_init (DD R) sh) ops = Ok m /\ dd_load 256 (dd_dump m) <> Ok m /\ exists m', dd_load 256 (dd_dump m) = Ok m'.
Proof.
  exists (mk_dd_shared [1; 1]%R), [GAdd 1; GMerge [0]], (mk_dd [1; 1] 1).
  split; [reflexivity|]. split; [vm_compute; discriminate|]. eexists. vm_compute. reflexivity.
Qed.
Print Assumptions C41_dd_group_round_trip_refuted.

(** ** C41, Dirichlet-process-discrete group, for every visiting order of the dump and whatever
    the object held before the load. *)
Theorem C41_dpd_group_round_trip : forall (F : Type) dl (sh : dpd_shared F) ops l g order old,
  let known v := v <> OTHER /\ dp_betas sh !! v <> None in
  ghistory (known_op known) (drawn_from known) [] ops l ->
  grun (DPD F) dl sh (c_init (DPD F) sh) ops = Ok g ->
  Permutation order (map_to_list (cmap g)) ->
  dpd_load dl old (dpd_dump order) = Ok g.
Proof.
  intros F dl sh ops l g order old known H E P. rewrite (dpd_history dl sh ops l H) in E. injection E as <-.
  apply dpd_trip; [|exact P]. apply (ghistory_fits _ _ _ _ _ (drawn_nil known) H).
Qed.
Print Assumptions C41_dpd_group_round_trip.
Example C41_dpd_nonvacuous : exists (sh : dpd_shared unit) g g',
  ghistory (known_op (fun v => v <> OTHER /\ dp_betas sh !! v <> None)) (drawn_from (fun v => v <> OTHER /\ dp_betas sh !! v <> None))
    [] [GAdd 3; GRep 7 2] ([7; 7] ++ [3]) /\
  grun (DPD unit) 1 sh (c_init (DPD unit) sh) [GAdd 3; GRep 7 2] = Ok g /\
  dpd_dump [(7, 2); (3, 1)] = mk_dpd_msg [7; 3] [2; 1] /\
  dpd_load 1 g (mk_dpd_msg [7; 3] [2; 1]) = Ok g' /\ map_to_list (cmap g') = [(3, 1); (7, 2)] /\ g' = g.
Proof.
  set (sh := mk_dpd_shared tt tt tt {[ 3 := tt; 7 := tt ]} (mk_counter ∅ (Some 0))).
  assert (H : ghistory (known_op (fun v => v <> OTHER /\ dp_betas sh !! v <> None))
    (drawn_from (fun v => v <> OTHER /\ dp_betas sh !! v <> None)) [] [GAdd 3; GRep 7 2] ([7; 7] ++ [3])).
  { assert (K3 : 3 <> OTHER /\ dp_betas sh !! 3 <> None) by (split; [unfold OTHER|]; discriminate).
    assert (K7 : 7 <> OTHER /\ dp_betas sh !! 7 <> None) by (split; [unfold OTHER|]; discriminate).
    apply (gh_cons _ _ [] (GAdd 3) [3]); [apply gs_add|split; exact I|split; [unfold short; cbn; lia|constructor; [exact K3|constructor]]|].
    apply (gh_cons _ _ [3] (GRep 7 2) ([7; 7] ++ [3])); [apply (gs_rep [3] 7 2)|split; [exact I|exact K7]|split; [unfold short; cbn; lia|]|constructor].
    constructor; [exact K7|]. constructor; [exact K7|]. constructor; [exact K3|constructor]. }
  pose proof (dpd_history 1 sh _ _ H) as E. exists sh. eexists. eexists. split; [exact H|]. split; [exact E|]. split; [reflexivity|].
  assert (P : Permutation [(7, 2); (3, 1)] (map_to_list (cmap (dpd_stat ([7; 7] ++ [3]))))) by (vm_compute; apply perm_swap).
  split; [exact (C41_dpd_group_round_trip unit 1 sh _ _ _ _ _ H E P)|]. split; [vm_compute; reflexivity|reflexivity].
Qed.

(** After a merge the total counts the source twice (C59); the load recomputes it. *)
Theorem C41_dpd_merge_repaired_by_round_trip : forall (F : Type) dl (sh : dpd_shared F) xs ys g h m p order old,
  let known v := v <> OTHER /\ dp_betas sh !! v <> None in
  drawn_from known xs -> drawn_from known ys -> Z.of_nat (length xs) + 2 * Z.of_nat (length ys) <= 2147483647 ->
  c_filled (DPD F) dl sh xs = Ok g -> c_filled (DPD F) dl sh ys = Ok h -> c_merge (DPD F) dl sh g h = Ok m ->
  c_filled (DPD F) dl sh (ys ++ xs) = Ok p ->
  Permutation order (map_to_list (cmap m)) ->
  dpd_load dl old (dpd_dump order) = Ok p.
Proof.
  intros F dl sh xs ys g h m p order old known Hx Hy Hs Eg Eh Em Ep P.
  assert (Hp : drawn_from known (ys ++ xs)).
  { split; [unfold short; rewrite app_length; lia|]. apply List.Forall_app. split; [apply Hy|apply Hx]. }
  rewrite (dpd_filled dl sh xs Hx) in Eg. rewrite (dpd_filled dl sh ys Hy) in Eh. rewrite (dpd_filled dl sh _ Hp) in Ep.
  injection Eg as <-. injection Eh as <-. injection Ep as <-.
  unfold DPD, c_merge, dpd_merge in Em. rewrite (dpd_merge_ok xs ys _ Hs) in Em by reflexivity. injection Em as <-.
  apply dpd_trip; [apply Hp|exact P].
Qed.
Print Assumptions C41_dpd_merge_repaired_by_round_trip.

(** A group in debt ("Group supports data debt", dpd.hpp:154) cannot always be loaded: the partial
    sums overflow in some visiting order although every total along the history fits. *)
Theorem C41_dpd_debt_round_trip_refuted : exists (sh : dpd_shared unit) ops g order,
  grun (DPD unit) 1 sh (c_init (DPD unit) sh) ops = Ok g /\ ctr_get_total g = Ok 2147483647 /\
  Permutation order (map_to_list (cmap g)) /\
  dpd_load 1 g (dpd_dump order) = UB.
Proof.
  set (sh := mk_dpd_shared tt tt tt {[ 1 := tt; 2 := tt; 3 := tt ]} (mk_counter ∅ (Some 0))).
  exists sh, [GRep 1 (Z.to_nat 2147483647); GRem 2; GAdd 3].
  exists (mk_counter {[ 3 := 1; 2 := -1; 1 := 2147483647 ]} (Some 2147483647)).
  exists [(1, 2147483647); (3, 1); (2, -1)].
  split.
  { cbn [grun grun1]. rewrite Z2Nat.id by lia. vm_compute. reflexivity. }
  split; [reflexivity|]. split; [|vm_compute; reflexivity].
  apply NoDup_Permutation; [repeat constructor; set_solver|apply NoDup_map_to_list|].
  intros [k v]. rewrite elem_of_map_to_list. cbn [cmap].
  rewrite !lookup_insert_Some, lookup_singleton_Some. rewrite !elem_of_cons, elem_of_nil. split.
  - intros [E|[E|[E|[]]]]; injection E as -> ->; naive_solver lia.
  - naive_solver.
Qed.
Print Assumptions C41_dpd_debt_round_trip_refuted.

(** ** C41, normal-inverse-Wishart group, exact arithmetic, every debug level. *)
Theorem C41_niw_group_round_trip : forall lg dl (sh : niw_shared R) (d : nat) ops l g,
  length (nw_mu sh) = d -> (0 < d)%nat ->
  ghistory (vec_op d) (vectors d) [] ops l ->
  let C := NIW R (N:=NumR lg) in
  grun C dl sh (c_init C sh) ops = Ok g ->
  niw_load (N:=NumR lg) dl (niw_dump g) = Ok g.
Proof.
  intros lg dl sh d ops l g Hd Hp H C E. unfold C in E. rewrite (niw_history lg d dl sh Hd ops l H) in E. injection E as <-.
  now apply niw_trip.
Qed.
Print Assumptions C41_niw_group_round_trip.

(** Hypotheses met: C27_nonvacuous.  A group of two vectors and its message: *)
Example C41_niw_message : let C := NIW term (N:=NumTerm) in
  let sh := mk_niw_shared [TOf 0; TOf 0] (TOf 1) [[TOf 1; TOf 0]; [TOf 0; TOf 1]] (TOf 3) in exists g,
  grun C 1 sh (c_init C sh) [GAdd [TOf 1; TOf 2]; GAdd [TOf 4; TOf 5]] = Ok g /\
  length (wm_sum_x (niw_dump g)) = 2%nat /\ length (wm_sum_xxT (niw_dump g)) = 4%nat /\ niw_load (N:=NumTerm) 1 (niw_dump g) = Ok g.
Proof. eexists. split; [reflexivity|]. repeat split; reflexivity. Qed.

(** ** C41, shareds.  Parameters only; r is a uint32_t, max_dim the capacity of the arrays. *)
Theorem C41_simple_shareds_round_trip : forall (F : Type),
  (forall sh : bb_shared F, bb_shared_load (bb_shared_dump sh) = sh) /\
  (forall sh : gp_shared F, gp_shared_load (gp_shared_dump sh) = sh) /\
  (forall sh : bnb_shared F, 0 <= bnb_r sh < 4294967296 -> bnb_shared_load (bnb_shared_dump sh) = sh) /\
  (forall sh : nich_shared F, nich_shared_load (nich_shared_dump sh) = sh) /\
  (forall max_dim (sh : dd_shared F), (dd_dim sh <= max_dim)%nat -> dd_shared_load max_dim (dd_shared_dump sh) = Ok sh) /\
  (forall c : py F, py_load (py_dump c) = c) /\
  (forall n, -2147483648 <= n <= 2147483647 -> le_load (le_dump n) = n).
Proof.
  intro F. repeat split.
  - now intros []. - now intros [].
  - intros [a b r] H. unfold bnb_shared_load, bnb_shared_dump. cbn in *. now rewrite uint_trip.
  - now intros [].
  - intros max_dim sh. apply dd_shared_trip.
  - now intros [].
  - intros n H. now apply int_trip.
Qed.
Print Assumptions C41_simple_shareds_round_trip.

(** Normal-inverse-Wishart: valid parameters; [ldlt] is any positivity test that accepts the
    symmetric positive definite matrices. *)
Theorem C41_niw_shared_round_trip : forall lg ldlt dl (sh : niw_shared R) (d : nat),
  length (nw_mu sh) = d -> (0 < d)%nat -> (0 < nw_kappa sh)%R -> NiwSpec.square d (nw_psi sh) -> spd d (nw_psi sh) ->
  (INR d - 1 < nw_nu sh)%R ->
  (forall A, NiwSpec.square d A -> spd d A -> ldlt A = true) ->
  niw_shared_load (N:=NumR lg) ldlt dl (niw_shared_dump sh) = Ok sh.
Proof. intros lg ldlt dl sh d <- Hd Hk Hq Hs Hn Ho. now apply niw_shared_trip. Qed.
Print Assumptions C41_niw_shared_round_trip.

(** Hypotheses met: C67_nonvacuous. *)

(** ** C68: a message nobody dumped.  Normal-inverse-Wishart loads never read outside the message:
    for every message, every arithmetic and every debug level they stop with an error or give an
    object that dumps to that message. *)
Theorem C68_niw_load_safe : forall (F : Set) (N : Num F) ldlt dl,
  (forall m : niw_msg F, niw_load dl m = Fail \/ exists g, niw_load dl m = Ok g /\ niw_dump g = m) /\
  (forall m : niw_shared_msg F, niw_shared_load ldlt dl m = Fail \/ exists sh, niw_shared_load ldlt dl m = Ok sh /\ niw_shared_dump sh = m).
Proof. intros F N ldlt dl. split; intro m; [apply niw_load_any|apply niw_shared_load_any]. Qed.
Print Assumptions C68_niw_load_safe.
Example C68_niw_accepts : niw_load (N:=NumTerm) 0 (mk_niw_msg 1 [TLit 1 2; TLit 1 3] [TLit 1 4; TLit 1 6; TLit 1 6; TLit 1 9])
  = Ok (mk_niw 1 [TLit 1 2; TLit 1 3] [[TLit 1 4; TLit 1 6]; [TLit 1 6; TLit 1 9]]).
Proof. reflexivity. Qed.
Example C68_niw_rejects : niw_load (N:=NumTerm) 0 (mk_niw_msg 1 [TLit 1 2; TLit 1 3] [TLit 1 4; TLit 1 6; TLit 1 6]) = Fail.
Proof. reflexivity. Qed.

(** Dirichlet-discrete: too many entries are refused at every debug level, by the shared and by the
    group. *)
Theorem C68_dd_rejects_long : forall (F : Type) max_dim,
  (forall m : list F, (max_dim < length m)%nat -> dd_shared_load max_dim m = Fail) /\
  (forall m : list Z, (max_dim < length m)%nat -> dd_load max_dim m = Fail).
Proof.
  intros F max_dim. split; intros m H; [unfold dd_shared_load|unfold dd_load]; rewrite (proj2 (Nat.leb_gt _ _) H); reflexivity.
Qed.
Print Assumptions C68_dd_rejects_long.
(** But counts whose sum does not fit an int overflow, although each count fits. *)
Theorem C68_dd_load_safe_refuted : exists m, (length m <= 256)%nat /\ List.Forall (fun c => 0 <= c <= 2147483647) m /\
  dd_load 256 m = UB.
Proof. exists [2147483647; 1]. split; [cbn; lia|]. split; [repeat constructor; lia|]. reflexivity. Qed.
Print Assumptions C68_dd_load_safe_refuted.

(** Dirichlet-process-discrete: lists of different lengths are refused by debug builds; in release
    builds missing values are read beyond the end of the message. *)
Theorem C68_dpd_length_check : forall old m, length (pm_keys m) <> length (pm_values m) ->
  (forall dl, (1 <= dl)%nat -> dpd_load dl old m = Fail) /\
  ((length (pm_values m) < length (pm_keys m))%nat -> dpd_load 0 old m = UB).
Proof.
  intros old m H. split; intros.
  - unfold dpd_load, dassert_at. apply Nat.eqb_neq in H. rewrite H. destruct (Nat.leb_spec 1 dl); [reflexivity|lia].
  - unfold dpd_load. change (dassert_at 0 1 (length (pm_keys m) =? length (pm_values m))%nat) with (Ok tt). cbn [obind].
    generalize (ctr_clear old). revert H0. generalize (pm_keys m) (pm_values m). clear.
    induction l as [|k l IH]; intros [|v vs] H c; cbn [length] in H; try lia; [reflexivity|].
    cbn [dpd_load_loop]. assert (E : (exists r, ctr_add c k (as_int v) = Ok r) \/ ctr_add c k (as_int v) = UB).
    { unfold ctr_add. destruct (_ =? 0); [eauto|]. unfold ctr_bump, i32.
      destruct (ctotal c); [destruct (_ && _)%bool|]; cbn [obind]; try (now right).
      all: destruct (cmap c !! k); [|eauto]; destruct (_ && _)%bool; cbn [obind]; [|now right]; destruct (_ =? 0); eauto. }
    destruct E as [(r & E)|E]; rewrite E; cbn [obind]; [|reflexivity]. apply IH. lia.
Qed.
Print Assumptions C68_dpd_length_check.
Example C68_dpd_witness : dpd_load 0 (mk_counter ∅ None) (mk_dpd_msg [1; 2] [5]) = UB /\ dpd_load 1 (mk_counter ∅ None) (mk_dpd_msg [1; 2] [5]) = Fail.
Proof. split; vm_compute; reflexivity. Qed.

(** Counts that do not fit wrap silently: loading and dumping restores a message exactly when each
    64-bit field is (the two's complement of) a number of the counter's type. *)
Theorem C68_counts_wrap : forall x y : Z, 0 <= x < 18446744073709551616 -> 0 <= y < 18446744073709551616 ->
  let int_field x := x <= 2147483647 \/ 18446744073709551616 - 2147483648 <= x in
  (bb_dump (bb_load (mk_bb_msg x y)) = mk_bb_msg x y <-> int_field x /\ int_field y) /\
  (bnb_dump (bnb_load (mk_bnb_msg x y)) = mk_bnb_msg x y <-> x < 4294967296 /\ y < 4294967296) /\
  (forall (F : Type) (lp : F), gp_dump (gp_load (mk_gp_msg x y lp)) = mk_gp_msg x y lp <-> x < 4294967296 /\ y < 4294967296) /\
  (forall (F : Type) (mean ctv : F), nich_dump (nich_load (mk_nich_msg x mean ctv)) = mk_nich_msg x mean ctv <-> int_field x).
Proof.
  intros x y Hx Hy int_field.
  pose proof (as_size_as_int x Hx) as Ix. pose proof (as_size_as_int y Hy) as Iy.
  pose proof (as_size_u32 x Hx) as Ux. pose proof (as_size_u32 y Hy) as Uy.
  fold (int_field x) in Ix. fold (int_field y) in Iy. clearbody int_field.
  unfold bb_dump, bb_load, bnb_dump, bnb_load, gp_dump, gp_load, nich_dump, nich_load.
  cbn [bm_heads bm_tails bb_heads bb_tails nm_count nm_sum bnb_count bnb_sum gm_count gm_sum gm_log_prod gp_count gp_sum gp_log_prod
       cm_count cm_mean cm_ctv ni_count ni_mean ni_ctv].
  split; [|split; [|split]].
  - rewrite <- Ix, <- Iy. split; [intro E; injection E; auto|intros [-> ->]; reflexivity].
  - rewrite <- Ux, <- Uy. split; [intro E; injection E; auto|intros [-> ->]; reflexivity].
  - intros F lp. rewrite <- Ux, <- Uy. split; [intro E; injection E; auto|intros [-> ->]; reflexivity].
  - intros F mean ctv. rewrite <- Ix. split; [intro E; injection E; auto|intros ->; reflexivity].
Qed.
Print Assumptions C68_counts_wrap.
(** A count of 2^31 heads is loaded as -2^31. *)
Example C68_wrap_witness : bb_load (mk_bb_msg 2147483648 0) = mk_bb (-2147483648) 0.
Proof. reflexivity. Qed.
