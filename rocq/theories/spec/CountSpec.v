(** Predictive laws of the counting models, with their parameters as real numbers. *)
From Coq Require Import Reals ZArith List.
From Flocq Require Import Core BinarySingleNaN Binary Bits.
Local Open Scope R_scope.

(** A finite float between 2^-20 and 2^20. *)
Definition moderate (x : binary32) : Prop :=
  is_finite 24 128 x = true /\ bpow radix2 (-20) <= B2R 24 128 x <= bpow radix2 20.

(** Logarithm of the probability of v when the rate is drawn from Gamma(A) with inverse scale B: negative binomial. *)
Definition gamma_poisson (lg : R -> R) (A B : R) (v : nat) : R :=
  lg (A + INR v) - lg A - ln (INR (fact v)) + A * ln (B / (1 + B)) - INR v * ln (1 + B).

(** Logarithm of the Beta function. *)
Definition log_beta_fn (lg : R -> R) (a b : R) : R := lg a + lg b - lg (a + b).
(** Sizes of the log-gammas in it, which scale the rounding errors. *)
Definition beta_size (lg : R -> R) (a b : R) : R := Rabs (lg a) + Rabs (lg b) + Rabs (lg (a + b)).

(** Sum of log v! over the values v. *)
Fixpoint sum_log_fact (l : list nat) : R :=
  match l with nil => 0 | cons v t => ln (INR (fact v)) + sum_log_fact t end.
(** Logarithm of the probability of the values under Gamma(alpha) with inverse scale beta for the rate. *)
Definition gamma_poisson_data (lg : R -> R) (alpha beta : R) (l : list nat) : R :=
  let A := alpha + INR (List.list_sum l) in let B := beta + INR (length l) in
  lg A - lg alpha + alpha * ln beta - A * ln B - sum_log_fact l.

(** Sum of f a c over the pairs of two lists of the same length. *)
Fixpoint pair_sum (f : R -> Z -> R) (al : list R) (cs : list Z) : R :=
  match al, cs with cons a al, cons c cs => f a c + pair_sum f al cs | _, _ => 0 end.
(** Logarithm of the probability of any sequence of values whose counts are [cs], the probabilities of the values being
    drawn from Dirichlet(al). *)
Definition dirichlet_data (lg : R -> R) (al : list R) (cs : list Z) : R :=
  let A := pair_sum (fun a _ => a) al cs in let N := pair_sum (fun _ c => IZR c) al cs in
  lg A - lg (A + N) + pair_sum (fun a c => lg (a + IZR c) - lg a) al cs.
Definition dirichlet_size (lg : R -> R) (al : list R) (cs : list Z) : R :=
  let A := pair_sum (fun a _ => a) al cs in let N := pair_sum (fun _ c => IZR c) al cs in
  Rabs (lg A) + Rabs (lg (A + N)) + pair_sum (fun a c => Rabs (lg (a + IZR c)) + Rabs (lg a)) al cs.

(** The same when the probabilities are drawn from a Dirichlet process of concentration [alpha], the values seen having
    the masses [al], of which they need not be all. *)
Definition dp_data (lg : R -> R) (alpha : R) (al : list R) (cs : list Z) : R :=
  lg alpha - lg (alpha + pair_sum (fun _ c => IZR c) al cs) + pair_sum (fun a c => lg (a + IZR c) - lg a) al cs.
Definition dp_size (lg : R -> R) (alpha : R) (al : list R) (cs : list Z) : R :=
  Rabs (lg alpha) + Rabs (lg (alpha + pair_sum (fun _ c => IZR c) al cs)) + pair_sum (fun a c => Rabs (lg (a + IZR c)) + Rabs (lg a)) al cs.
