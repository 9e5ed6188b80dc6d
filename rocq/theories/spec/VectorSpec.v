(** What an array kernel must do, said with plain lists. *)
From Coq Require Import List.
Import ListNotations.

(** [out] is [io] with the first [n] entries replaced: entry i becomes v i. *)
Definition elementwise {A} (n : nat) (io out : list A) (v : nat -> A -> Prop) : Prop :=
  length out = length io /\
  (forall i x, i < n -> nth_error out i = Some x -> v i x) /\
  (forall i, n <= i -> nth_error out i = nth_error io i).

(** Left fold in index order over the first [n] entries. *)
Definition fold_first {A B} (n : nat) (f : B -> A -> B) (b : B) (l : list A) : B :=
  fold_left f (firstn n l) b.
