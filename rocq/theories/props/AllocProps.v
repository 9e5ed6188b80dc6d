(** Property C78: memory handed out by aligned_allocator. *)
From Verif.model Require Import Base Alloc.
From Verif.spec Require Import AllocSpec.
From Verif.proof Require Import AllocProof.
Local Open Scope Z_scope.

(** Every history of allocate and deallocate, at every debug level, for every element size
    and every alignment that is a power of two: the frees are valid and everything the user
    holds is aligned, large enough and overlaps nothing else. *)
Theorem C78_blocks_usable : forall dl sz k cs rs calls last, 0 < sz -> 0 <= k < 64 ->
  heap_run dl sz (2 ^ k) cs = Ok (rs, calls) ->
  user_ok sz [] cs rs last -> library_ok [] calls ->
  frees_ok [] calls /\ all_usable sz (2 ^ k) last.
Proof.
  intros dl sz k cs rs calls last Hsz Hk HR HU HL.
  destruct (run_inv dl sz k Hsz Hk cs rs calls [] last I HR HU HL) as [HF HI].
  split; [exact HF |]. now apply inv_usable.
Qed.
Print Assumptions C78_blocks_usable.

(** The alignment assertion of allocate never fires when the library keeps its promise, and fires at
    level 3 otherwise. *)
Theorem C78_no_assertion : forall dl sz k cs, 0 <= k < 64 ->
  Forall (fun c => match c with Allocate _ (Some a) => a mod 2 ^ k = 0 | _ => True end) cs ->
  exists rs calls, heap_run dl sz (2 ^ k) cs = Ok (rs, calls).
Proof. intros. now apply run_ok. Qed.
Print Assumptions C78_no_assertion.

Theorem C78_misaligned_reported : forall dl sz k n a, 0 <= k < 64 -> (3 <= dl)%nat ->
  a mod 2 ^ k <> 0 -> allocate dl sz (2 ^ k) n (Some a) = Fail.
Proof.
  intros dl sz k n a Hk Hd Ha. unfold allocate. rewrite (proj2 (Nat.leb_le 3 dl) Hd).
  rewrite assert_aligned_iff by exact Hk. apply Z.eqb_neq in Ha. now rewrite Ha.
Qed.
Print Assumptions C78_misaligned_reported.

(** max_size is exactly the largest count whose size in bytes is a size_t. *)
Theorem C78_max_size : forall sz n, 0 < sz -> n <= max_size sz <-> n * sz < 2 ^ 64.
Proof.
  intros sz n Hsz. unfold max_size. change (2 ^ 64) with 18446744073709551616. split; intros H.
  - assert (n * sz <= 18446744073709551615); [| lia].
    pose proof (Z.mul_div_le 18446744073709551615 sz Hsz). nia.
  - apply Z.div_le_lower_bound; lia.
Qed.
Print Assumptions C78_max_size.

(** Views of vectors: every pointer the allocator gave with the default alignment is accepted,
    and the pointer constructor reports every other pointer in every build. *)
Theorem C78_views : forall data size,
  (data mod 32 = 0 -> aligned_of_pointer data size = Ok (data, size) /\
     forall dl, aligned_of_vector dl data size = Ok (data, size)) /\
  (data mod 32 <> 0 -> aligned_of_pointer data size = Fail).
Proof.
  intros data size. unfold aligned_of_pointer, aligned_of_vector, default_alignment.
  change 32 with (2 ^ 5). rewrite assert_aligned_iff by lia.
  split; intros H.
  - rewrite H. split; [reflexivity |]. intros dl. now destruct (3 <=? dl)%nat.
  - apply Z.eqb_neq in H. now rewrite H.
Qed.
Print Assumptions C78_views.

(** Beyond max_size no exception is thrown: the product wraps and a library that keeps its
    promise may answer a block too small (here, for floats, of no bytes at all). *)
Theorem C78_too_many_elements_refuted :
  exists n a calls, allocate 3 4 32 n (Some a) = Ok (Got a, calls) /\
    n > max_size 4 /\ library_ok [] calls /\ calls = [Memalign 32 0 (Some a)].
Proof.
  exists 4611686018427387904, 4096. eexists. split; [reflexivity |].
  split; [vm_compute; reflexivity |]. split; [| reflexivity].
  cbn. split; [| exact I]. split; [reflexivity |]. split; [vm_compute; discriminate |]. right. split; [lia | contradiction].
Qed.
Print Assumptions C78_too_many_elements_refuted.

(** Two vectors of floats, one given back, one failed request. *)
Example C78_nonvacuous :
  let cs := [Allocate 3 (Some 4096); Allocate 8 (Some 4128); Allocate 5 None; Deallocate 4096 3] in
  exists rs calls, heap_run 3 4 32 cs = Ok (rs, calls) /\
    user_ok 4 [] cs rs [(4128, 8)] /\ library_ok [] calls.
Proof.
  cbv zeta. do 2 eexists. split; [reflexivity |]. split.
  - cbn. repeat split; lia.
  - cbn. unfold memalign_ok, apart. cbn.
    repeat split; try lia.
    + right. split; [lia | contradiction].
    + right. split; [lia |]. intros b [<- | []]. cbn. lia.
Qed.
