(** What the id tracker must do: groups are named by creation order. *)
From Coq Require Import List ZArith.
Import ListNotations.
Local Open Scope Z_scope.

Inductive top := TAdd | TRem (packed : Z).

(** State: the global ids of the live groups in packed order, and the number of
    groups created so far. *)
Inductive tstep : list Z * Z -> top -> list Z * Z -> Prop :=
| t_add live n : tstep (live, n) TAdd (live ++ [n], n + 1)
| t_rem_inner pre g mid last n :
    tstep (pre ++ g :: mid ++ [last], n) (TRem (Z.of_nat (length pre))) (pre ++ last :: mid, n)
| t_rem_last pre g n :
    tstep (pre ++ [g], n) (TRem (Z.of_nat (length pre))) (pre, n).

Inductive tsteps : list Z * Z -> list top -> list Z * Z -> Prop :=
| ts_nil s : tsteps s [] s
| ts_cons s o s1 ops s2 : tstep s o s1 -> tsteps s1 ops s2 -> tsteps s (o :: ops) s2.

(** Ids 0 .. k-1. *)
Definition first_ids (k : nat) : list Z := map Z.of_nat (seq 0 k).

Fixpoint adds (ops : list top) : Z :=
  match ops with [] => 0 | TAdd :: t => 1 + adds t | TRem _ :: t => adds t end.

(** Legal history from [init k]: every removal names an existing packed id. *)
Fixpoint legal (size : Z) (ops : list top) : Prop :=
  match ops with
  | [] => True
  | TAdd :: t => legal (size + 1) t
  | TRem p :: t => 0 <= p < size /\ legal (size - 1) t
  end.
