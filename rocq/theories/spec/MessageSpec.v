(** When two messages should be called close. *)
From Coq Require Import List ZArith Reals.
Import ListNotations.
Local Open Scope R_scope.

(** The tolerance is the float nearest to 1/10. *)
Definition near (x y : R) : Prop :=
  Rabs (x - y) <= (1 + Rabs x + Rabs y) * (13421773 / 134217728).

Definition near_all (x y : list R) : Prop := Forall2 near x y.

(** Entries of two parallel repeated fields. *)
Definition entries {A B} (keys : list A) (vals : list B) : list (A * B) := combine keys vals.
