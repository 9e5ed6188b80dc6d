(** Packed_<Value>, include/distributions/vector.hpp:39-61.
    A std::vector is a list; capacity, allocation and moved-from states are not modelled. *)
From Verif.model Require Import Base.

(** packed_remove, vector.hpp:47-51.
    [dl] = DIST_DEBUG_LEVEL.  back() of an empty vector and operator[] out of
    range are undefined.  Self-move-assignment of the last element is harmless
    because that element is then popped. *)
Definition packed_remove {A} (dl : nat) (l : list A) (pos : nat) : outcome (list A) :=
  let* _ := dassert_at dl 1 (pos <? length l) in
  let* b := vget l (length l - 1) in
  let* l' := vset l pos b in
  Ok (removelast l').

(** packed_add(value), vector.hpp:53-55. *)
Definition packed_add {A} (l : list A) (a : A) : list A := l ++ [a].
