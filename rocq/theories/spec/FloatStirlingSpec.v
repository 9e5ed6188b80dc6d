(** A float standing for the logarithm of a number. *)
From Coq Require Import Reals List.
From Flocq Require Import Core BinarySingleNaN Binary Bits.
From Verif.spec Require Import StirlingSpec.
Local Open Scope R_scope.

(** Minus infinity for 0, otherwise a finite float within [eps] of the logarithm. *)
Definition log_near (eps : R) (v : binary32) (c : R) : Prop :=
  (c = 0 /\ v = B754_infinity 24 128 true) \/
  (0 < c /\ is_finite 24 128 v = true /\ Rabs (B2R 24 128 v - ln c) <= eps).

(** The n + 1 entries of row n, each within [eps]. *)
Definition log_row (eps : R) (n : nat) (row : list binary32) : Prop :=
  exists c, stirling_row n c /\ List.Forall2 (log_near eps) row c.

(** The two approximations named in the source, Eqn 26.8.40 of the Digital Library of Mathematical Functions and
    Gruenberg's (read without the n! the comment has in the denominator and the code has not), in logarithms. *)
Definition approx1 (gamma : R) (n k : nat) : R :=
  ln (INR (fact (n - 1))) - ln (INR (fact (k - 1))) + INR (k - 1) * ln (gamma + ln (INR (n - 1))).
Definition approx2 (n k : nat) : R := INR (n - k) * ln (INR n * INR n / 2) - ln (INR (fact (n - k))).
(** Soft minimum with softness w. *)
Definition softmin (w a b : R) : R := - w * ln (exp (- a / w) + exp (- b / w)).

(** The float nearest to Euler's constant. *)
Definition euler : R := 9684072 / 16777216.

(** Row n >= 32 against the numbers c: the ends are right, and the rest is the soft minimum of the two
    approximations to within n / 5000, which lies between ln s - 0.237 n and
    ln s + (k - 1) ln (gamma + ln (n - 1)) + n / 5000. *)
Definition near_row (n : nat) (row : list binary32) (c : list R) : Prop :=
  length row = S n /\ nth_error row 0 = Some (B754_infinity 24 128 true) /\
  (exists v, nth_error row n = Some v /\ is_finite 24 128 v = true /\ B2R 24 128 v = 0) /\
  forall k s, (1 <= k < n)%nat -> nth_error c k = Some s -> exists v, nth_error row k = Some v /\ is_finite 24 128 v = true /\
    Rabs (B2R 24 128 v - softmin (INR n / 3) (approx1 euler n k) (approx2 n k)) <= INR n / 5000 /\
    ln s - 237 / 1000 * INR n <= B2R 24 128 v <= ln s + INR (k - 1) * ln (euler + ln (INR (n - 1))) + INR n / 5000.
