(** Histories of one group, said on the plain list of the data it holds.
    No reference to the model of the code. *)
From Coq Require Import List ZArith Reals.
Import ListNotations.

(** Calls on a group: add or remove one value, add a value n times, absorb another group
    that was filled with [ys]. *)
Inductive gop (V : Type) :=
| GAdd (v : V) | GRem (v : V) | GRep (v : V) (n : nat) | GMerge (ys : list V).
Arguments GAdd {V}. Arguments GRem {V}. Arguments GRep {V}. Arguments GMerge {V}.

(** Effect of one call on the data; a value can be removed only if it is present. *)
Inductive gstep {V : Type} : list V -> gop V -> list V -> Prop :=
| gs_add l v : gstep l (GAdd v) (v :: l)
| gs_rem l1 v l2 : gstep (l1 ++ v :: l2) (GRem v) (l1 ++ l2)
| gs_rep l v n : gstep l (GRep v n) (repeat v n ++ l)
| gs_merge l ys : gstep l (GMerge ys) (ys ++ l).

(** Histories of calls permitted by [ok] all of whose states (data sets) satisfy [fits]. *)
Inductive ghistory {V : Type} (ok : list V -> gop V -> Prop) (fits : list V -> Prop)
  : list V -> list (gop V) -> list V -> Prop :=
| gh_nil l : ghistory ok fits l [] l
| gh_cons l o l1 ops l2 : gstep l o l1 -> ok l o -> fits l1 -> ghistory ok fits l1 ops l2 ->
    ghistory ok fits l (o :: ops) l2.

Definition any_op {V : Type} (_ : list V) (_ : gop V) : Prop := True.
(** Every call but merge. *)
Definition no_merge {V : Type} (_ : list V) (o : gop V) : Prop :=
  match o with GMerge _ => False | _ => True end.

Fixpoint zsum (l : list Z) : Z := match l with [] => 0%Z | x :: t => (x + zsum t)%Z end.

(** No bound on the data. *)
Definition all_lists {A} (_ : list A) : Prop := True.
(** At most 2^31 - 1 data: the counters of type int do not overflow. *)
Definition short {A} (l : list A) : Prop := (Z.of_nat (length l) <= 2147483647)%Z.
(** Short, and all values in 0 .. dim - 1. *)
Definition in_dim (dim : nat) (l : list Z) : Prop :=
  short l /\ List.Forall (fun v => (0 <= v < Z.of_nat dim)%Z) l.
(** Calls of a Dirichlet-discrete history: no merge; a repeated value is in range even if it
    is repeated 0 times. *)
Definition dd_op (dim : nat) (l : list Z) (o : gop Z) : Prop :=
  no_merge l o /\ match o with GRep v _ => (0 <= v < Z.of_nat dim)%Z | _ => True end.
(** Non-negative data whose number and sum stay below 2^32: the uint32_t fields do not wrap. *)
Definition small_counts (l : list Z) : Prop :=
  (Z.of_nat (length l) < 4294967296)%Z /\ List.Forall (fun v => (0 <= v)%Z) l /\ (zsum l < 4294967296)%Z.
(** Short, and all values satisfying [P]. *)
Definition drawn_from (P : Z -> Prop) (l : list Z) : Prop := short l /\ List.Forall P l.
(** Calls of a history over the values [P]: no merge; a repeated value is in [P] even if it is
    repeated 0 times. *)
Definition known_op (P : Z -> Prop) (l : list Z) (o : gop Z) : Prop :=
  no_merge l o /\ match o with GRep v _ => P v | _ => True end.
