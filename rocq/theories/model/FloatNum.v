(** The operations of model/Num.v on IEEE single precision, the type float of the code, so that the
    generic code of model/Random.v and model/VectorMath.v can be run with rounding.  float and double are
    not distinguished.  The functions other than + - * / < <= and exp stay arguments. *)
From Flocq Require Import Core BinarySingleNaN Binary Bits.
From Verif.model Require Import Base Num FastExp.

(** fast_exp, special.hpp:87-89, as a total function; where fmath::exp (fmath.hpp:438-459) is undefined this
    answers NaN.  The theorems about float code show separately that no such call is made. *)
Definition exp_or_nan (tbl : list Z) (x : binary32) : binary32 :=
  match fast_exp tbl x with Ok y => y | _ => b32_of_bits 2143289344 end.

(** x < y on floats, false when either is NaN (vector_math.cc:69, 80; random.hpp:308, 327). *)
Definition b32_ltb (x y : binary32) : bool := match b32_compare x y with Some Lt => true | _ => false end.
(** x <= y on floats (random.hpp:327). *)
Definition b32_leb (x y : binary32) : bool := match b32_compare x y with Some Lt | Some Eq => true | _ => false end.

(** float arithmetic, rounding to nearest even (every float expression of src/random.cc and random.hpp). *)
Definition NumB (tbl : list Z) (lit : Z -> Z -> binary32) (lg lgam lgam_nu : binary32 -> binary32)
    (lfact : Z -> binary32) (sq : binary32 -> binary32) (pw : binary32 -> binary32 -> binary32) : Num binary32 :=
  mkNum binary32 float_of_int lit
    (b32_plus mode_NE) (b32_minus mode_NE) (b32_mult mode_NE) (b32_div mode_NE) b32_opp
    lg (exp_or_nan tbl) lgam lgam_nu lfact sq pw b32_ltb b32_leb.
