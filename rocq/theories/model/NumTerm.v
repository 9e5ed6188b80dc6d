(** Symbolic arithmetic: an operation builds an expression.  Not part of the code; used by
    concrete cases that have to be evaluated.  Comparisons answer false. *)
From Coq Require Import ZArith.
From Verif.model Require Import Num.

(** Model only: expressions over the floats of include/distributions/*.hpp. *)
Inductive term :=
| TOf (z : Z) | TLit (p q : Z) | TAdd (a b : term) | TSub (a b : term) | TMul (a b : term) | TDiv (a b : term)
| TNeg (a : term) | TLog (a : term) | TExp (a : term) | TLgamma (a : term) | TLgammaNu (a : term)
| TLogFact (z : Z) | TSqrt (a : term) | TPow (a b : term).

(** Model only: arithmetic that builds expressions instead of computing (for examples). *)
Definition NumTerm : Num term := {|
  nof := TOf; nlit := TLit; nadd := TAdd; nsub := TSub; nmul := TMul; ndiv := TDiv; nneg := TNeg;
  nlog := TLog; nexp := TExp; nlgamma := TLgamma; nlgamma_nu := TLgammaNu; nlogfact := TLogFact;
  nsqrt := TSqrt; npow := TPow; nltb := fun _ _ => false; nleb := fun _ _ => false |}.
