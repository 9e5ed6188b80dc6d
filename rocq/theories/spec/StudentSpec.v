(** Student's t distribution and what is asked of lgammaf. *)
From Coq Require Import Reals.
From Flocq Require Import Core BinarySingleNaN Binary Bits.
Local Open Scope R_scope.

(** Logarithm of the density at x of Student's t with nu degrees of freedom, location mu and precision lambda. *)
Definition student_t (lg : R -> R) (nu mu lambda x : R) : R :=
  lg ((nu + 1) / 2) - lg (nu / 2) + ln (lambda / (nu * PI)) / 2 - (nu + 1) / 2 * ln (1 + lambda * (x - mu) ^ 2 / nu).

(** lgammaf below 5/2, where fast_lgamma calls it: error of 2^-21, absolute and relative. *)
Definition good_lgammaf (lg : R -> R) (libm : binary32 -> binary32) : Prop :=
  forall x, is_finite 24 128 x = true -> bpow radix2 (-30) <= B2R 24 128 x <= 5 / 2 ->
    is_finite 24 128 (libm x) = true /\
    Rabs (B2R 24 128 (libm x) - lg (B2R 24 128 x)) <= / 2097152 * (1 + Rabs (lg (B2R 24 128 x))).
