(** Unsigned Stirling numbers of the first kind: the coefficients of the rising factorial
    x (x+1) ... (x+n-1). *)
From Coq Require Import Reals List ZArith.
Import ListNotations.
Local Open Scope R_scope.

Fixpoint rising (x : R) (n : nat) : R :=
  match n with O => 1 | S m => rising x m * (x + INR m) end.

(** c_0 + c_1 x + c_2 x^2 + ... *)
Fixpoint poly (c : list R) (x : R) : R :=
  match c with [] => 0 | a :: t => a + x * poly t x end.

(** [stirling_row n c]: c lists |s(n,0)|, ..., |s(n,n)|. *)
Definition stirling_row (n : nat) (c : list R) : Prop :=
  length c = S n /\ forall x, poly c x = rising x n.
