(** Mean and centred sum of squares of a list of reals. *)
From Coq Require Import List Reals.
From Verif.spec Require Import GroupSpec.
Import ListNotations.
Local Open Scope R_scope.

Fixpoint rsum (l : list R) : R := match l with [] => 0 | x :: t => x + rsum t end.
(** Arithmetic mean; 0 for no data. *)
Definition rmean (l : list R) : R := match l with [] => 0 | _ => rsum l / INR (length l) end.
(** Sum of squared deviations from the mean. *)
Definition ssd (l : list R) : R := rsum (map (fun x => (x - rmean l)²) l).

(** Calls after which the normal-inverse-chi-squared group is exact: additions, removals,
    merges not of two empty groups. *)
Definition nich_op (l : list R) (o : gop R) : Prop :=
  match o with
  | GRep _ _ => False
  | GMerge ys => ys ++ l <> []
  | _ => True
  end.
