(** The exact-arithmetic reading of the scoring code: rounding is not modelled,
    fast_log is ln, fast_exp is exp, fast_lgamma an arbitrary [lg]. *)
From Coq Require Import ZArith Reals.
From Verif.model Require Import Num.
Local Open Scope R_scope.

(** operator< of include/distributions/*.hpp on reals *)
Definition rltb (x y : R) : bool := if Rlt_dec x y then true else false.
(** operator<= of include/distributions/*.hpp on reals *)
Definition rleb (x y : R) : bool := if Rle_dec x y then true else false.

(** log n! as the exact sum of logarithms (fast_log_factorial, special.hpp:208-214). *)
Fixpoint ln_fact (n : nat) : R :=
  match n with O => 0 | S n' => ln_fact n' + ln (INR n) end.

(** Real numbers for the floats of include/distributions/*.hpp. *)
Definition NumR (lg : R -> R) : Num R := {|
  nof := IZR;
  nlit p q := IZR p / IZR q;
  nadd := Rplus; nsub := Rminus; nmul := Rmult; ndiv := Rdiv; nneg := Ropp;
  nlog := ln; nexp := exp; nlgamma := lg;
  nlgamma_nu nu := lg (nu / 2 + / 2) - lg (nu / 2);
  nlogfact n := ln_fact (Z.to_nat n);
  nsqrt := sqrt; npow := Rpower;
  nltb := rltb; nleb := rleb |}.
