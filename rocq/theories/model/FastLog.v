(** FastLog of include/distributions/special.hpp and src/special.cc on IEEE single precision. *)
From Flocq Require Import Core BinarySingleNaN Binary Bits.
From Verif.model Require Import Base VectorMath FastExp Special.
Local Open Scope Z_scope.

(** 0.69314718055994529f, special.hpp:66 *)
Definition b_ln2 : binary32 := b32_of_bits 1060205080.

(** The argument of log2 at entry i of the table, src/special.cc:39-41.  The sum is computed in double and
    converted; it is exact either way. *)
Definition fastlog_arg (N : Z) (i : nat) : binary32 :=
  b32_plus mode_NE (float_of_int 1)
    (b32_div mode_NE (b32_mult mode_NE (float_of_int (Z.of_nat i)) (float_of_int (Z.shiftl 1 (23 - N))))
       (float_of_int (Z.shiftl 1 23))).

(** FastLog::FastLog, src/special.cc:35-44; [log2] is libm's, its result converted to float. *)
Definition fastlog_table32 (log2 : binary32 -> binary32) (N : Z) : outcome (list binary32) :=
  let size := Z.to_nat (Z.shiftl 1 N) in
  vfor 0 size (fun i table => vset table i (log2 (fastlog_arg N i))) (repeat (float_of_int 0) size).

(** FastLog::log, special.hpp:57-67 *)
Definition fastlog32 (N : Z) (table : list binary32) (x : binary32) : outcome binary32 :=
  let b := bits_of_b32 x in
  let* t := zget table (fastlog_man N b) in
  Ok (b32_mult mode_NE (b32_plus mode_NE (float_of_int (fastlog_exp b)) t) b_ln2).

(** fast_log, special.hpp:72-85 *)
Definition fast_log_run (log2 : binary32 -> binary32) (x : binary32) : outcome binary32 :=
  let* table := fastlog_table32 log2 14 in
  fastlog32 14 table x.
(** Model only: NaN for an undefined call (special.hpp:72-85); C88_fast_log shows there is none. *)
Definition or_nan (o : outcome binary32) : binary32 :=
  match o with Ok y => y | _ => b32_of_bits 2143289344 end.
(** fast_log, special.hpp:72-85, as a total function *)
Definition fast_log32 (log2 : binary32 -> binary32) (x : binary32) : binary32 := or_nan (fast_log_run log2 x).
