(** What is asked of libm's log2 on [1, 2), as a function to floats: one unit in the last place of [1/2, 1). *)
From Coq Require Import Reals.
From Flocq Require Import Core BinarySingleNaN Binary Bits.
Local Open Scope R_scope.

Definition good_log2 (log2 : binary32 -> binary32) : Prop :=
  forall x, is_finite 24 128 x = true -> 1 <= B2R 24 128 x < 2 ->
    is_finite 24 128 (log2 x) = true /\
    Rabs (B2R 24 128 (log2 x) - ln (B2R 24 128 x) / ln 2) <= / 16777216.

(** Hyperparameters of ordinary size: between 2^-30 and 2^30. *)
Definition ordinary (x : binary32) : Prop :=
  is_finite 24 128 x = true /\ bpow radix2 (-30) <= B2R 24 128 x <= bpow radix2 30.

(** The float [s] is the logarithm of the probability [p], to within [err]. *)
Definition scores (err p : R) (s : binary32) : Prop :=
  0 < p /\ is_finite 24 128 s = true /\ Rabs (B2R 24 128 s - ln p) <= err.

(** A discount: zero, or between 2^-30 and 1. *)
Definition discount (d : binary32) : Prop :=
  is_finite 24 128 d = true /\ (B2R 24 128 d = 0 \/ bpow radix2 (-30) <= B2R 24 128 d) /\ B2R 24 128 d < 1.
