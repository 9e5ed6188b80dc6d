(** The special functions of the counting models as operations of an arithmetic in single precision. *)
From Flocq Require Import Core BinarySingleNaN Binary Bits.
From Verif.model Require Import Base Num FastExp FloatNum FastLog FastLgamma FloatStirling Student.

(** fast_lgamma, special.hpp:114-171, as a total function; model only: NaN for an undefined call *)
Definition lgamma32 (daz : bool) (libm : binary32 -> binary32) (x : binary32) : binary32 := or_nan (fast_lgamma32 daz libm x).
(** fast_log_factorial, special.hpp:208-214, as a total function, likewise *)
Definition log_factorial32 (daz : bool) (libm : binary32 -> binary32) (n : Z) : binary32 := or_nan (fast_log_factorial32 daz libm n).

(** float, with the functions of special.hpp, on which gp.hpp, bnb.hpp and bb.hpp are compiled; [tbl] is the table of
    fast_exp, [log2] fills the table of fast_log, [libm] is lgammaf and [sq], [pw] are sqrtf and powf, not called by these. *)
Definition NumC (tbl : list Z) (log2 : binary32 -> binary32) (daz : bool) (libm sq : binary32 -> binary32) (pw : binary32 -> binary32 -> binary32) : Num binary32 :=
  NumB tbl lit32 (fast_log32 log2) (lgamma32 daz libm) (lgamma_nu32 libm) (log_factorial32 daz libm) sq pw.
