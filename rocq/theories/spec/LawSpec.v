(** Volume of a box, and the list of all label sequences of a given length. *)
From Coq Require Import List ZArith Reals.
From Verif.spec Require Import LabelSpec.
Import ListNotations.
Local Open Scope R_scope.

(** Product of the side lengths hi 0 - lo 0, ..., hi (n-1) - lo (n-1): the probability that n
    independent uniform draws fall into the box. *)
Fixpoint volume (lo hi : nat -> R) (n : nat) : R :=
  match n with O => 1 | S n' => volume lo hi n' * (hi n' - lo n') end.

(** L lists each label sequence of length n exactly once. *)
Definition enumerates (L : list (list Z)) (n : nat) : Prop :=
  NoDup L /\ forall a, In a L <-> length a = n /\ labels_from 0 a.

(** L lists each sequence of n values from [vals] exactly once. *)
Definition all_sequences {V} (vals : list V) (n : nat) (L : list (list V)) : Prop :=
  NoDup L /\ forall l, In l L <-> length l = n /\ incl l vals.
