(** What is asked of the logarithms and exponentials of libm, and the sum in logarithms. *)
From Coq Require Import Reals List.
From Flocq Require Import Core BinarySingleNaN Binary Bits.
From Verif.spec Require Import PartitionSpec.
Local Open Scope R_scope.

(** [lg] is within [eps] of the logarithm between 1/2 and 2^21. *)
Definition log_within (eps : R) (lg : binary32 -> binary32) : Prop :=
  forall x, is_finite 24 128 x = true -> / 2 <= B2R 24 128 x <= 2097152 ->
    is_finite 24 128 (lg x) = true /\ Rabs (B2R 24 128 (lg x) - ln (B2R 24 128 x)) <= eps.

(** expf on arguments that are not positive: two units in the last place, the smallest positive float of
    slack below, and 0 for minus infinity. *)
Definition good_expf (expf : binary32 -> binary32) : Prop :=
  (forall x, is_finite 24 128 x = true -> B2R 24 128 x <= 0 ->
    is_finite 24 128 (expf x) = true /\ 0 <= B2R 24 128 (expf x) <= 1 /\
    Rabs (B2R 24 128 (expf x) - exp (B2R 24 128 x)) <= exp (B2R 24 128 x) / 8388608 + bpow radix2 (-149)) /\
  expf (B754_infinity 24 128 true) = B754_zero 24 128 false.

(** logf from 1 up: two units in the last place. *)
Definition good_logf (logf : binary32 -> binary32) : Prop :=
  forall x, is_finite 24 128 x = true -> 1 <= B2R 24 128 x ->
    is_finite 24 128 (logf x) = true /\
    Rabs (B2R 24 128 (logf x) - ln (B2R 24 128 x)) <= ln (B2R 24 128 x) / 8388608.

(** Logarithm of the sum of the exponentials. *)
Definition log_sum (l : list R) : R := ln (rsum (map exp l)).
