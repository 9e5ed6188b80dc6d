(** Student's t distribution, include/distributions/random.hpp:134-157, and logarithms of Beta functions and binomial
    coefficients, include/distributions/special.hpp:173-197. *)
From Coq Require Import Bool.
From Flocq Require Import Core BinarySingleNaN Binary Bits.
From Verif.model Require Import Base Num FastExp FloatNum FastLog FastLgamma NICH.

Section Student.
  Context {F : Type} {N : Num F}.
  Local Open Scope num_scope.

  (** fast_score_student_t, random.hpp:134-145 *)
  Definition fast_score_student_t (x nu mu lambda : F) : F :=
    let p := nlit 0 1 in
    let p := p + nlgamma_nu nu in
    let p := p + half * nlog (lambda / (m_pif * nu)) in
    p + ((- half) * nu - half) * nlog (nlit 1 1 + (lambda * sqr (x - mu)) / nu).

  (** score_student_t, random.hpp:147-157; the logarithm and log-gamma of the arithmetic stand for logf and lgammaf *)
  Definition score_student_t (x nu mu lambda : F) : F :=
    let p := nlgamma (nu * half + half) - nlgamma (nu * half) in
    let p := p + half * nlog (lambda / (m_pif * nu)) in
    p + ((- half) * nu - half) * nlog (nlit 1 1 + (lambda * sqr (x - mu)) / nu).
End Student.

Section Gammas.
  (** fast_lgamma of special.hpp:114-171 or libm's lgamma (special.hpp:173-197; that one is in double precision, which
      is not distinguished here) *)
  Variable lgam : binary32 -> outcome binary32.

  (** log_beta, special.hpp:173-179; fast_log_beta, special.hpp:181-189 *)
  Definition log_beta32 (alpha beta : binary32) : outcome binary32 :=
    if b32_leb alpha (float_of_int 0) || b32_leb beta (float_of_int 0) then Ok (B754_infinity 24 128 true)
    else
      let* a := lgam alpha in
      let* b := lgam beta in
      let* c := lgam (b32_plus mode_NE alpha beta) in
      Ok (b32_minus mode_NE (b32_plus mode_NE a b) c).

  (** log_binom, special.hpp:191-193; fast_log_binom, special.hpp:195-197 *)
  Definition log_binom32 (n k : binary32) : outcome binary32 :=
    let* a := lgam (b32_plus mode_NE n (float_of_int 1)) in
    let* b := lgam (b32_plus mode_NE k (float_of_int 1)) in
    let* c := lgam (b32_plus mode_NE (b32_minus mode_NE n k) (float_of_int 1)) in
    Ok (b32_minus mode_NE a (b32_plus mode_NE b c)).
End Gammas.

(** The literals of nich.hpp, random.hpp:140-155 and special.hpp:38 as floats: the quotient in double precision,
    rounded to float, which for these is the float nearest to the literal. *)
Definition lit32 (p q : Z) : binary32 :=
  narrow (b64_div mode_NE (binary_normalize 53 1024 prec64 emax64 mode_NE p 0 false)
    (binary_normalize 53 1024 prec64 emax64 mode_NE q 0 false)).
(** fast_lgamma_nu, special.hpp:239-273, as a total function; model only: NaN for an undefined call, and
    C86_fast_lgamma_nu shows there is none *)
Definition lgamma_nu32 (libm : binary32 -> binary32) (nu : binary32) : binary32 := or_nan (fast_lgamma_nu32 libm nu).
