(** Outcomes of C++ calls, debug-level assertions, machine integers. *)
From Coq Require Export List ZArith Lia Bool Arith.
Export ListNotations.

(** Result of a C++ call.
    [Fail]  : DIST_ERROR ran (abort, or throw with DIST_THROW_ON_ERROR),
              include/distributions/common.hpp:49-67.
    [UB]    : the C++ standard gives the execution no meaning. *)
Inductive outcome (A : Type) : Type :=
| Ok (a : A)
| Fail
| UB.
Arguments Ok {A} a.
Arguments Fail {A}.
Arguments UB {A}.

(** Model only: sequencing; stops at the first call that does not return. *)
Definition obind {A B} (x : outcome A) (f : A -> outcome B) : outcome B :=
  match x with Ok a => f a | Fail => Fail | UB => UB end.

(** Model only: notation for it. *)
Notation "'let*' x := e 'in' k" := (obind e (fun x => k))
  (at level 200, x pattern, e at level 100, k at level 200, right associativity).

(** DIST_ASSERT, include/distributions/common.hpp:76-77: always active. *)
Definition dassert (b : bool) : outcome unit := if b then Ok tt else Fail.

(** DIST_ASSERT_(level, cond, message), common.hpp:102-107; [dl] is the value of
    the macro DIST_DEBUG_LEVEL (common.hpp:98-100, default 0). *)
Definition dassert_at (dl level : nat) (b : bool) : outcome unit :=
  if level <=? dl then dassert b else Ok tt.

(** Signed 32-bit arithmetic: a result outside the range is signed overflow (count_t = int, common.hpp and models/*.hpp). *)
Definition i32_min : Z := (- 2147483648)%Z.
(** INT32_MAX *)
Definition i32_max : Z := 2147483647%Z.
(** the result when it fits, else undefined *)
Definition i32 (z : Z) : outcome Z :=
  if ((i32_min <=? z) && (z <=? i32_max))%Z then Ok z else UB.

(** Unsigned 32-bit conversion: wraps (conversions to uint32_t, as in mixture.hpp:472-477). *)
Definition u32 (z : Z) : Z := (z mod 4294967296)%Z.

(** operator[] of std::vector, read: undefined when out of range. *)
Definition vget {A} (l : list A) (i : nat) : outcome A :=
  match nth_error l i with Some a => Ok a | None => UB end.

(** List update at a position (no effect when out of range). *)
Fixpoint upd {A} (l : list A) (i : nat) (a : A) : list A :=
  match l, i with
  | [], _ => []
  | _ :: t, O => a :: t
  | h :: t, S j => h :: upd t j a
  end.

(** operator[] of std::vector, write: undefined when out of range. *)
Definition vset {A} (l : list A) (i : nat) (a : A) : outcome (list A) :=
  if i <? length l then Ok (upd l i a) else UB.
