(** What a clustering driver must do, said on plain lists of group sizes.
    No reference to the model of the code. *)
From Coq Require Import List ZArith Lia.
Import ListNotations.
Local Open Scope Z_scope.

(** Client calls: add / remove [n] values to / from the group with packed id [g]. *)
Inductive dop := DAdd (g : nat) (n : Z) | DRem (g : nat) (n : Z).

(** One legal call.  [dstep before call after returned]. *)
Inductive dstep : list Z -> dop -> list Z -> bool -> Prop :=
| add_to_nonempty pre c post n : 0 < c -> 0 < n ->
    dstep (pre ++ c :: post) (DAdd (length pre) n) (pre ++ (c + n) :: post) false
| add_to_empty pre post n : 0 < n ->     (* a fresh empty group appears at the end *)
    dstep (pre ++ 0 :: post) (DAdd (length pre) n) (pre ++ n :: post ++ [0]) true
| rem_some pre c post n : 0 < n -> n < c ->
    dstep (pre ++ c :: post) (DRem (length pre) n) (pre ++ (c - n) :: post) false
| rem_all_inner pre n mid last : 0 < n -> (* the last group takes the freed id *)
    dstep (pre ++ n :: mid ++ [last]) (DRem (length pre) n) (pre ++ last :: mid) true
| rem_all_last pre n : 0 < n ->
    dstep (pre ++ [n]) (DRem (length pre) n) pre true.

Fixpoint sum_sizes (l : list Z) : Z := match l with [] => 0 | x :: l' => x + sum_sizes l' end.

(** A legal history whose running totals stay representable in an int32. *)
Inductive dhistory : list Z -> list dop -> list Z -> list bool -> Prop :=
| dh_nil l : dhistory l [] l []
| dh_cons l o l1 b ops l2 bs :
    dstep l o l1 b -> sum_sizes l1 < 2 ^ 31 -> dhistory l1 ops l2 bs ->
    dhistory l (o :: ops) l2 (b :: bs).

(** Net number of values added by a history. *)
Fixpoint net (ops : list dop) : Z :=
  match ops with
  | [] => 0
  | DAdd _ n :: t => n + net t
  | DRem _ n :: t => - n + net t
  end.

(** Legal initial sizes. *)
Definition sizes_ok (l : list Z) : Prop :=
  Forall (fun c => 0 <= c) l /\ In 0 l /\ sum_sizes l < 2 ^ 31.

Definition num_empty (l : list Z) : nat := count_occ Z.eq_dec l 0.
