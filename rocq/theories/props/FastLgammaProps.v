(** C86, C87: fast_lgamma, fast_lgamma_nu and fast_log_factorial against the log-gamma function.  [lg] ranges
    over the functions that are the log-gamma function (spec/DrawSpec.v); [libm] is lgammaf. *)
From Coq Require Import List Reals Lra Lia ZArith Bool.
From Coquelicot Require Import Coquelicot.
From Flocq Require Import Core BinarySingleNaN Binary Bits.
From Verif.model Require Import Base FastExp FloatNum SpecialTables Special FastLgamma.
From Verif.spec Require Import DrawSpec.
From Verif.proof Require Import LnBounds FastExpProof FloatScoresProof FloatNichProof LgammaBound GammaFunction LgammaSeg FastLgammaProof FastLgammaNuProof FastLgammaMore.
Import ListNotations.
Local Open Scope R_scope.

(** Relative error of fast_lgamma: x is the argument, l the true value, r the value returned. *)
Definition lgamma_close (x l r : R) : Prop :=
  Rabs (r - l) <= 39 / 1000000 * l /\
  (4 <= x -> Rabs (r - l) <= 21 / 1000000 * l) /\
  (8 <= x -> Rabs (r - l) <= 72 / 10000000 * l) /\
  (16 <= x -> Rabs (r - l) <= 42 / 10000000 * l).

(** Without denormals-are-zero: accurate on [2.5, 2^32); outside the call is left to libm. *)
Theorem C86_fast_lgamma : forall lg libm (y : binary32), is_log_gamma lg -> is_finite 24 128 y = true ->
  (5 / 2 <= B2R 24 128 y < bpow radix2 32 ->
    exists r, fast_lgamma32 false libm y = Ok r /\ is_finite 24 128 r = true /\
      lgamma_close (B2R 24 128 y) (lg (B2R 24 128 y)) (B2R 24 128 r)) /\
  (B2R 24 128 y < 5 / 2 \/ bpow radix2 32 <= B2R 24 128 y -> fast_lgamma32 false libm y = Ok (libm y)).
Proof. exact fast_lgamma_all. Qed.
Print Assumptions C86_fast_lgamma.

(** With denormals-are-zero, as -ffast-math sets it: only below 2^30. *)
Theorem C86_fast_lgamma_daz_partial : forall lg libm (y : binary32), is_log_gamma lg -> is_finite 24 128 y = true ->
  5 / 2 <= B2R 24 128 y < bpow radix2 30 ->
  exists r, fast_lgamma32 true libm y = Ok r /\ is_finite 24 128 r = true /\
    lgamma_close (B2R 24 128 y) (lg (B2R 24 128 y)) (B2R 24 128 r).
Proof. exact fast_lgamma_daz. Qed.
Print Assumptions C86_fast_lgamma_daz_partial.

(** At 1.5 * 2^30 the subnormal coefficient is dropped and the error is above 0.2 %. *)
Theorem C86_fast_lgamma_daz_refuted : exists y r : binary32, is_finite 24 128 y = true /\
  B2R 24 128 y = 1610612736 /\ is_finite 24 128 r = true /\
  forall lg libm, is_log_gamma lg -> fast_lgamma32 true libm y = Ok r /\
    2 / 1000 * lg (B2R 24 128 y) < Rabs (B2R 24 128 r - lg (B2R 24 128 y)).
Proof. exact daz_refuted. Qed.
Print Assumptions C86_fast_lgamma_daz_refuted.

(** fast_lgamma_nu: absolute error; outside [1/16, 2^32) the two values of libm are subtracted. *)
Theorem C86_fast_lgamma_nu : forall lg libm (y : binary32), is_log_gamma lg -> is_finite 24 128 y = true ->
  (/ 16 <= B2R 24 128 y < bpow radix2 32 ->
    exists r, fast_lgamma_nu32 libm y = Ok r /\ is_finite 24 128 r = true /\
      Rabs (B2R 24 128 r - (lg (B2R 24 128 y / 2 + / 2) - lg (B2R 24 128 y / 2))) <= 16 / 1000) /\
  (Rabs (B2R 24 128 y) <= bpow radix2 100 -> B2R 24 128 y < / 16 \/ bpow radix2 32 <= B2R 24 128 y ->
    exists p q : binary32, fast_lgamma_nu32 libm y = Ok (b32_minus mode_NE (libm p) (libm q)) /\
      is_finite 24 128 p = true /\ is_finite 24 128 q = true /\
      Rabs (B2R 24 128 q - B2R 24 128 y / 2) <= / 16777216 * Rabs (B2R 24 128 y / 2) + bpow radix2 (-150) /\
      Rabs (B2R 24 128 p - (B2R 24 128 y / 2 + / 2)) <= / 4194304 * (Rabs (B2R 24 128 y / 2) + / 2)).
Proof. intros lg libm y H F. split; [intros R; exact (lgamma_nu_accuracy lg libm y H F R) | intros R O; exact (lgamma_nu_outside libm y F R O)]. Qed.
Print Assumptions C86_fast_lgamma_nu.

(** fast_log_factorial where it is not a table. *)
Theorem C86_log_factorial_partial : forall daz libm n, (64 <= n <= 4294967166)%Z -> (daz = true -> (n <= 1073741790)%Z) ->
  exists r, fast_log_factorial_large daz libm n = Ok r /\ is_finite 24 128 r = true /\
    Rabs (B2R 24 128 r - ln (INR (fact (Z.to_nat n)))) <= 45 / 10000000 * ln (INR (fact (Z.to_nat n))).
Proof. intros daz libm n. exact (factorial_large ln_gamma ln_gamma_is daz libm n). Qed.
Print Assumptions C86_log_factorial_partial.

(** The bit patterns of the tables are the literals of the source, rounded. *)
Theorem C86_tables :
  let near (l : Z * Z) (b : Z) := is_finite 24 128 (b32_of_bits b) = true /\
    Rabs (B2R 24 128 (b32_of_bits b) - literal l) <= / 2 * ulp radix2 (SpecFloat.fexp 24 128) (B2R 24 128 (b32_of_bits b)) in
  List.Forall2 near lgamma_approx_coeff5 lgamma_coeff_bits /\
  List.Forall2 near lgamma_nu_func_approx_coeff3 lgamma_nu_coeff_bits.
Proof.
  intros near. destruct (andb_prop _ _ tables_rounded) as [A B].
  split; (eapply all2_ok; [| eassumption]); exact rounded_ok.
Qed.
Print Assumptions C86_tables.

Example C86_meets : is_log_gamma ln_gamma /\ is_finite 24 128 (float_of_int 1000) = true /\ 5 / 2 <= B2R 24 128 (float_of_int 1000) < bpow radix2 30.
Proof.
  split; [exact ln_gamma_is |]. destruct (int_ok 1000 ltac:(lia)) as [E F]. split; [exact F |].
  change (B2R 24 128 (float_of_int 1000)) with (b2r (float_of_int 1000)). rewrite E. change (bpow radix2 30) with 1073741824. lra.
Qed.
(** log 64! = 205.168199 *)
Example C86_run libm : fast_log_factorial_large true libm 64 = Ok (b32_of_bits 1129130759).
Proof. apply obits_ok; [vm_compute; reflexivity | lia]. Qed.

(** C87.  The log-gamma function satisfies lg (x+1) = lg x + ln x, and scores are differences of this kind. *)
Theorem C87_step_partial : forall lg libm (y y1 : binary32), is_log_gamma lg ->
  is_finite 24 128 y = true -> is_finite 24 128 y1 = true -> B2R 24 128 y1 = B2R 24 128 y + 1 ->
  16 <= B2R 24 128 y -> B2R 24 128 y1 < bpow radix2 32 ->
  exists r r1, fast_lgamma32 false libm y = Ok r /\ fast_lgamma32 false libm y1 = Ok r1 /\
    Rabs ((B2R 24 128 r1 - B2R 24 128 r) - ln (B2R 24 128 y)) <= 84 / 10000000 * (B2R 24 128 y1 * ln (B2R 24 128 y1)).
Proof. exact step_partial. Qed.
Print Assumptions C87_step_partial.

(** Adding 1 to 2^22 - 1 lowers the value returned, where it should rise by 15.2. *)
Theorem C87_step_refuted : exists y y1 r r1 : binary32, B2R 24 128 y = 4194303 /\ B2R 24 128 y1 = 4194304 /\
  (forall daz libm, fast_lgamma32 daz libm y = Ok r /\ fast_lgamma32 daz libm y1 = Ok r1) /\
  B2R 24 128 r1 - B2R 24 128 r = -4 /\ 15 < ln (B2R 24 128 y).
Proof. exact step_22. Qed.
Print Assumptions C87_step_refuted.

(** fast_lgamma is not monotone: it drops from the float below 4 to 4. *)
Theorem C87_monotone_refuted : exists y y1 r r1 : binary32, B2R 24 128 y1 = 4 /\ 3 < B2R 24 128 y < B2R 24 128 y1 /\
  (forall daz libm, fast_lgamma32 daz libm y = Ok r /\ fast_lgamma32 daz libm y1 = Ok r1) /\
  B2R 24 128 r1 + / 100000 < B2R 24 128 r.
Proof. exact drop_4. Qed.
Print Assumptions C87_monotone_refuted.

Example C87_meets : B2R 24 128 (float_of_int 1001) = B2R 24 128 (float_of_int 1000) + 1 /\ 16 <= B2R 24 128 (float_of_int 1000).
Proof.
  destruct (int_ok 1000 ltac:(lia)) as [E _]. destruct (int_ok 1001 ltac:(lia)) as [E1 _].
  change (B2R 24 128 ?x) with (b2r x). change (B2R 24 128 (float_of_int 1001)) with (b2r (float_of_int 1001)).
  change (B2R 24 128 (float_of_int 1000)) with (b2r (float_of_int 1000)). rewrite E, E1. lra.
Qed.
