(** aligned_allocator, include/distributions/aligned_allocator.hpp, and Aligned_,
    include/distributions/vector.hpp:63-87.  Addresses and sizes are numbers.  The allocator has
    no state: what it does is the calls it makes to the C library, which are recorded.
    construct and destroy (aligned_allocator.hpp:111-117), which only forward, are not
    modelled. *)
From Verif.model Require Import Base.
Local Open Scope Z_scope.

(** Arithmetic on size_t wraps (the product in aligned_allocator.hpp:98). *)
Definition wrap64 (z : Z) : Z := z mod 18446744073709551616.

(** Calls of posix_memalign, with the pointer it stores or [None] when it returns an error,
    and of free (aligned_allocator.hpp:98, 108). *)
Inductive lib_call :=
| Memalign (alignment bytes : Z) (answer : option Z)
| Free (p : Z).

(** DIST_ASSERT_ALIGNED_TO, aligned_allocator.hpp:47-53; alignment has type size_t. *)
Definition assert_aligned (alignment addr : Z) : outcome unit :=
  let mask := wrap64 (alignment - 1) in
  let offset := Z.land addr mask in
  dassert (offset =? 0).

(** What a call of allocate does: returns a pointer or throws std::bad_alloc
    (aligned_allocator.hpp:98-104). *)
Inductive got := Got (addr : Z) | Bad_alloc.

(** allocate, aligned_allocator.hpp:96-105.  [sz] = sizeof(T), [dl] = DIST_DEBUG_LEVEL;
    [answer] is the library's. *)
Definition allocate (dl : nat) (sz alignment n : Z) (answer : option Z) : outcome (got * list lib_call) :=
  let bytes := wrap64 (n * sz) in
  let calls := [Memalign alignment bytes answer] in
  match answer with
  | None => Ok (Bad_alloc, calls)
  | Some a =>
      let* _ := (if (3 <=? dl)%nat then assert_aligned alignment a else Ok tt) in
      Ok (Got a, calls)
  end.

(** deallocate, aligned_allocator.hpp:107-109; the count is ignored. *)
Definition deallocate (p n : Z) : list lib_call := [Free p].

(** max_size, aligned_allocator.hpp:119-121 *)
Definition max_size (sz : Z) : Z := 18446744073709551615 / sz.

(** default_alignment, aligned_allocator.hpp:62 *)
Definition default_alignment : Z := 32.

(** Aligned_(Value *, size_t), vector.hpp:66-70: checked in every build. *)
Definition aligned_of_pointer (data size : Z) : outcome (Z * Z) :=
  let* _ := assert_aligned default_alignment data in Ok (data, size).

(** Aligned_(Packed_ &), vector.hpp:72-78: checked at debug level 3 only. *)
Definition aligned_of_vector (dl : nat) (data size : Z) : outcome (Z * Z) :=
  let* _ := (if (3 <=? dl)%nat then assert_aligned default_alignment data else Ok tt) in
  Ok (data, size).

(** A user's history of calls to allocate and deallocate (aligned_allocator.hpp:96-109). *)
Inductive heap_call := Allocate (n : Z) (answer : option Z) | Deallocate (p n : Z).

(** The calls in order: the results of allocate, and the calls made to the library
    (aligned_allocator.hpp:96-109). *)
Fixpoint heap_run (dl : nat) (sz alignment : Z) (cs : list heap_call) : outcome (list got * list lib_call) :=
  match cs with
  | [] => Ok ([], [])
  | Allocate n answer :: t =>
      let* (r, c) := allocate dl sz alignment n answer in
      let* (rs, c') := heap_run dl sz alignment t in
      Ok (r :: rs, c ++ c')
  | Deallocate p n :: t =>
      let* (rs, c') := heap_run dl sz alignment t in
      Ok (rs, deallocate p n ++ c')
  end.
