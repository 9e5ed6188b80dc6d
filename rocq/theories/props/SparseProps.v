(** Properties C16, C17, C18 of the sparse containers. *)
From Verif.model Require Import Base Sparse SparseRun.
From Verif.spec Require Import SparseSpec.
From Verif.proof Require Import SparseProof.
From stdpp Require Import gmap.
From Coq Require Import Permutation.
Local Open Scope Z_scope.

(** C16. Counts, total, returned values and iterated entries are those of the integer sums. *)
Theorem C16_sparse_counter_exact : forall dl c0 ops, legal_history ops ->
  exists c rets, crun dl (ctr_clear c0) ops = Ok (c, rets) /\
    (forall k, ctr_get_count c k = sum_for k ops) /\
    ctr_get_total c = Ok (sum_all ops) /\
    (forall k v, In (k, v) (map_to_list (cmap c)) <-> sum_for k ops = v /\ v <> 0) /\
    (forall pre o post, ops = pre ++ o :: post -> nth_error rets (length pre) =
       Some (match o with CInit _ _ => None | _ => Some (sum_for (op_key o) (pre ++ [o])) end)).
Proof. exact counter_exact. Qed.
Print Assumptions C16_sparse_counter_exact.

(** C16. The total is the sum of the iterated counts. *)
Theorem C16_total_is_sum_of_entries : forall dl c0 ops c rets, legal_history ops ->
  crun dl (ctr_clear c0) ops = Ok (c, rets) ->
  ctr_get_total c = Ok (fold_right Z.add 0 (map snd (map_to_list (cmap c)))).
Proof. exact counter_total_is_sum. Qed.
Print Assumptions C16_total_is_sum_of_entries.

(** C16. Renaming a key to an unused one moves its count and keeps the total. *)
Theorem C16_rename : forall dl dl' a ops c r old new,
  legal_history ops -> crun dl (ctr_clear a) ops = Ok (c, r) ->
  sum_for new ops = 0 \/ new = old \/ sum_for old ops = 0 ->
  exists c', ctr_rename dl' c old new = Ok c' /\ ctr_get_total c' = Ok (sum_all ops) /\
    (forall k, ctr_get_count c' k =
       if sum_for old ops =? 0 then sum_for k ops
       else if k =? new then sum_for old ops else if k =? old then 0 else sum_for k ops).
Proof. exact rename_ok. Qed.
Print Assumptions C16_rename.

(** Without clear() the total is indeterminate: the very first add is undefined. *)
Theorem C16_usable_without_clear_refuted : exists k v, ctr_add ctr_new k v = UB.
Proof. exists 5, 1. reflexivity. Qed.
Print Assumptions C16_usable_without_clear_refuted.

Definition ex_c := [CInit 4 3; CAdd 7 2; CRemove 9; CAdd 7 (-2); CRemove 4; CAdd 9 5].
Example C16_case : legal_history ex_c /\
  exists c, crun 1 (ctr_clear ctr_new) ex_c = Ok (c, [None; Some 2; Some (-1); Some 0; Some 2; Some 4])
   /\ ctr_get_total c = Ok 6 /\ ctr_get_count c 7 = 0 /\ ctr_get_count c 9 = 4.
Proof.
  split.
  - intros pre o post E. unfold ex_c in E.
    do 6 (destruct pre as [|? pre]; [injection E as <- <-; unfold in_i32; cbn; lia|injection E as <- E]).
    destruct pre; discriminate E.
  - eexists. split; [vm_compute; reflexivity|]. vm_compute. auto.
Qed.

(** C17. Merging adds every count, in any iteration order; but the total counts the
    argument twice. *)
Theorem C17_merge_counts_partial : forall dl dl' a b ops1 ops2 c1 c2 r1 r2 order,
  legal_history ops1 -> legal_history ops2 ->
  crun dl (ctr_clear a) ops1 = Ok (c1, r1) -> crun dl' (ctr_clear b) ops2 = Ok (c2, r2) ->
  Permutation order (map_to_list (cmap c2)) ->
  abs_all ops1 + 2 * abs_all ops2 < 2 ^ 31 ->
  exists c, ctr_merge c1 c2 order = Ok c /\
    (forall k, ctr_get_count c k = sum_for k ops1 + sum_for k ops2) /\
    ctr_get_total c = Ok (sum_all ops1 + 2 * sum_all ops2).
Proof. exact merge_counts. Qed.
Print Assumptions C17_merge_counts_partial.

Theorem C17_merge_total_refuted : exists ops1 ops2 c1 c2 r1 r2 c,
  legal_history ops1 /\ legal_history ops2 /\
  crun 0 (ctr_clear ctr_new) ops1 = Ok (c1, r1) /\ crun 0 (ctr_clear ctr_new) ops2 = Ok (c2, r2) /\
  ctr_merge c1 c2 (map_to_list (cmap c2)) = Ok c /\
  ctr_get_total c <> Ok (sum_all ops1 + sum_all ops2).
Proof.
  exists [CAdd 1 1], [CAdd 2 1]. do 5 eexists.
  assert (L : forall k, legal_history [CAdd k 1]).
  { intros k [|? [|? ?]] o post E; [|discriminate E|discriminate E]. injection E as <- <-.
    unfold in_i32. cbn. rewrite Z.eqb_refl. lia. }
  split; [apply L|]. split; [apply L|].
  split; [vm_compute; reflexivity|]. split; [vm_compute; reflexivity|].
  split; [vm_compute; reflexivity|]. vm_compute. discriminate.
Qed.
Print Assumptions C17_merge_total_refuted.

(** C18. Every legal history behaves as on a mathematical finite map, and iteration
    visits its graph once. *)
Theorem C18_sparse_map_refines : forall (V : Type) (dflt : V) dl ops f rs,
  msteps dflt (fun _ => None) ops f rs ->
  exists m, mrun dflt dl ∅ ops = Ok (m, rs) /\
    (forall k v, In (k, v) (map_to_list m) <-> f k = Some v) /\
    sp_size m = length (map_to_list m) /\ NoDup (map fst (map_to_list m)).
Proof. exact @sparse_refines. Qed.
Print Assumptions C18_sparse_map_refines.

(** C18. The first illegal call after a legal history is reported at debug level >= 1. *)
Theorem C18_illegal_call_reported : forall (V : Type) (dflt : V) dl m f o, (1 <= dl)%nat ->
  (forall k, m !! k = f k) ->
  (match o with
   | MAdd k _ | MAddDefault k => f k <> None
   | MRemove k | MPop k | MSet k _ | MGet k => f k = None
   | _ => False
   end) -> mrun1 dflt dl m o = Fail.
Proof. exact @sparse_illegal. Qed.
Print Assumptions C18_illegal_call_reported.

Example C18_case : exists f rs, msteps 0%nat (fun _ => None)
    [MAdd 3 7%nat; MGetOrAdd 4; MSet 3 9%nat; MPop 3; MContains 3] f rs /\
  rs = [RNone; RVal 0%nat; RNone; RVal 9%nat; RBool false].
Proof.
  eexists _, _. split.
  - eapply ms_cons; [apply m_add; reflexivity|].
    eapply ms_cons; [apply m_get_or_add_new; reflexivity|].
    eapply ms_cons; [eapply m_set; reflexivity|].
    eapply ms_cons; [eapply m_pop; reflexivity|].
    eapply ms_cons; [apply m_contains|]. apply ms_nil.
  - reflexivity.
Qed.

(** C18. In a release build (debug level 0) adding a present key keeps the old entry and removing an
    absent one changes nothing; the calls that dereference an absent entry are undefined. *)
Theorem C18_unchecked_illegal_call : forall (V : Type) (dflt : V) m (f : Z -> option V),
  (forall k, m !! k = f k) ->
  (forall k v old, f k = Some old -> mrun1 dflt 0 m (MAdd k v) = Ok (m, RNone)) /\
  (forall k old, f k = Some old -> mrun1 dflt 0 m (MAddDefault k) = Ok (m, RVal old)) /\
  (forall k, f k = None -> mrun1 dflt 0 m (MRemove k) = Ok (m, RNone)) /\
  (forall k v, f k = None -> mrun1 dflt 0 m (MPop k) = UB /\ mrun1 dflt 0 m (MSet k v) = UB /\ mrun1 dflt 0 m (MGet k) = UB).
Proof.
  intros V dflt m f Hf. repeat split; intros; cbn [mrun1]; unfold sp_add, sp_add_default, sp_remove, sp_pop, sp_set, sp_get, sp_find, um_insert, sp_contains.
  - now rewrite Hf, H.
  - rewrite Hf, H. cbn. now rewrite Hf, H.
  - rewrite Hf, H. cbn. f_equal. f_equal. apply delete_notin. now rewrite Hf.
  - now rewrite Hf, H.
  - now rewrite Hf, H.
  - now rewrite Hf, H.
Qed.
Print Assumptions C18_unchecked_illegal_call.
Example C18_unchecked_case :
  mrun1 0%nat 0 {[ 3 := 7%nat ]} (MAdd 3 9%nat) = Ok ({[ 3 := 7%nat ]}, RNone) /\
  mrun1 0%nat 0 {[ 3 := 7%nat ]} (MAddDefault 3) = Ok ({[ 3 := 7%nat ]}, RVal 7%nat).
Proof. split; reflexivity. Qed.

(** C16. In a release build init_count on a key in use and rename onto a key in use go unreported;
    the first changes the total and not the count, the second loses a count and keeps the total. *)
Theorem C16_unchecked_misuse_refuted : exists ops c r c1 c2, legal_history ops /\
  crun 0 (ctr_clear ctr_new) ops = Ok (c, r) /\ ctr_get_total c = Ok 5 /\
  ctr_init_count 0 c 1 7 = Ok c1 /\ ctr_get_count c1 1 = 2 /\ ctr_get_total c1 = Ok 12 /\
  ctr_rename 0 c 1 4 = Ok c2 /\ ctr_get_count c2 1 = 0 /\ ctr_get_count c2 4 = 3 /\ ctr_get_total c2 = Ok 5.
Proof.
  exists [CAdd 1 2; CAdd 4 3]. do 4 eexists. split.
  { intros pre o post E. do 2 (destruct pre as [|? pre]; [injection E as <- <-; unfold in_i32; cbn; lia|injection E as <- E]).
    destruct pre; discriminate E. }
  repeat split; vm_compute; reflexivity.
Qed.
Print Assumptions C16_unchecked_misuse_refuted.
