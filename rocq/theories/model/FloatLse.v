(** fast_log_sum_exp and log_sum_exp of two floats, include/distributions/special.hpp:91-102, on IEEE single
    precision. *)
From Flocq Require Import Core BinarySingleNaN Binary Bits.
From Verif.model Require Import Base FastExp FloatNum FastLog.

(** x < y ? x : y, special.hpp:92, 99 *)
Definition min32 (x y : binary32) : binary32 := if b32_ltb x y then x else y.
(** x < y ? y : x, special.hpp:93, 100 *)
Definition max32 (x y : binary32) : binary32 := if b32_ltb x y then y else x.

(** fast_log_sum_exp, special.hpp:91-96; [tbl] is the table of fmath::exp, [log2] fills that of fast_log *)
Definition fast_lse (tbl : list Z) (log2 : binary32 -> binary32) (x y : binary32) : outcome binary32 :=
  let* e := fast_exp tbl (b32_minus mode_NE (min32 x y) (max32 x y)) in
  let* l := fast_log_run log2 (b32_plus mode_NE (float_of_int 1) e) in
  Ok (b32_plus mode_NE (max32 x y) l).

(** log_sum_exp, special.hpp:98-102; [expf] and [logf] are libm's *)
Definition lse32 (expf logf : binary32 -> binary32) (x y : binary32) : binary32 :=
  b32_plus mode_NE (max32 x y)
    (logf (b32_plus mode_NE (float_of_int 1) (expf (b32_minus mode_NE (min32 x y) (max32 x y))))).
