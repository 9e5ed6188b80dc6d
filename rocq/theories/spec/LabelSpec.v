(** Group labels in order of first appearance, occurrence counts, predictive weights. *)
From Coq Require Import List ZArith Reals.
Import ListNotations.
Local Open Scope Z_scope.

(** [labels_from k l]: every entry is a label below the next unused one, or exactly that one;
    k is the number of labels used before [l]. *)
Fixpoint labels_from (k : Z) (l : list Z) : Prop :=
  match l with
  | [] => True
  | a :: l' => 0 <= a <= k /\ labels_from (if a =? k then k + 1 else k) l'
  end.
(** Number of labels used after [l]. *)
Fixpoint next_label (k : Z) (l : list Z) : Z :=
  match l with
  | [] => k
  | a :: l' => next_label (if a =? k then k + 1 else k) l'
  end.

Definition occ (g : Z) (l : list Z) : Z := Z.of_nat (count_occ Z.eq_dec l g).
(** Sizes of the groups labelled 0 .. k-1. *)
Definition label_sizes (k : Z) (l : list Z) : list Z :=
  map (fun g => occ (Z.of_nat g) l) (seq 0 (Z.to_nat k)).

(** Unnormalised two-parameter restaurant weights after the values labelled [l]:
    size minus discount for each used label, then alpha + d K for a new one. *)
Definition py_weights (a d : R) (l : list Z) : list R :=
  map (fun c => IZR c - d)%R (label_sizes (next_label 0 l) l) ++ [a + d * IZR (next_label 0 l)]%R.

(** Group ids appearing in a list of (key, id) pairs. *)
Definition group_occ (g : nat) (pairs : list (Z * Z)) : nat :=
  length (filter (fun p => snd p =? Z.of_nat g) pairs).
