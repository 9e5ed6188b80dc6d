(** What is used of the log-gamma function: Gamma(1) = 1 and Gamma(x+1) = x Gamma(x). *)
From Coq Require Import Reals.
Local Open Scope R_scope.

Record lgamma_like (lg : R -> R) : Prop := {
  lg_one : lg 1 = 0;
  lg_succ : forall x, 0 < x -> lg (x + 1) = ln x + lg x }.

(** The rising factorial x (x+1) ... (x+n-1) = Gamma(x+n) / Gamma(x). *)
Fixpoint rising (x : R) (n : nat) : R :=
  match n with O => 1 | S n' => rising x n' * (x + INR n') end.
