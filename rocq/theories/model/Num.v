(** Floating-point operations used by the scoring code, as an abstract structure.
    Theorems stated for every [Num F] hold in particular for IEEE floats evaluated
    deterministically: no algebraic law is assumed.  float and double are not
    distinguished. *)
From Coq Require Import ZArith.

(** The operations on float and double used in include/distributions/*.hpp and src/*.cc, abstractly. *)
Class Num (F : Type) := mkNum {
  nof : Z -> F;                       (* conversion from an integer type *)
  nlit : Z -> Z -> F;                 (* the literal p/q *)
  nadd : F -> F -> F;
  nsub : F -> F -> F;
  nmul : F -> F -> F;
  ndiv : F -> F -> F;
  nneg : F -> F;
  nlog : F -> F;                      (* fast_log, special.hpp:82-85 *)
  nexp : F -> F;                      (* fast_exp, special.hpp:87-89 *)
  nlgamma : F -> F;                   (* fast_lgamma, special.hpp:114-171 *)
  nlgamma_nu : F -> F;                (* fast_lgamma_nu, special.hpp:239-273 *)
  nlogfact : Z -> F;                  (* fast_log_factorial, special.hpp:208-214 *)
  nsqrt : F -> F;
  npow : F -> F -> F;
  nltb : F -> F -> bool;
  nleb : F -> F -> bool }.

Declare Scope num_scope.
Delimit Scope num_scope with num.
Infix "+" := nadd : num_scope.
Infix "-" := nsub : num_scope.
Infix "*" := nmul : num_scope.
Infix "/" := ndiv : num_scope.
(** Model only: notation. *)
Notation "- x" := (nneg x) : num_scope.
Infix "<?" := nltb : num_scope.
Infix "<=?" := nleb : num_scope.
