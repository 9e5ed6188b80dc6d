(** fast_exp, include/distributions/special.hpp:87-89, which is fmath::exp,
    include/distributions/vendor/fmath.hpp:438-475, on IEEE single precision numbers (Flocq's
    binary32), every operation rounded to nearest even.  The compiler is taken not to fuse
    multiplications and subtractions; the variant using Xbyak (fmath.hpp:435-437) is not modelled. *)
From Flocq Require Import Core BinarySingleNaN Binary Bits.
From Verif.model Require Import Base.
Local Open Scope Z_scope.

(** Hypotheses of Flocq's operations for single precision (float, fmath.hpp:438). *)
Definition prec32 : 0 < 24 := eq_refl.
(** float, fmath.hpp:438 *)
Definition emax32 : 24 < 128 := eq_refl.

(** _mm_cvtss_si32 (fmath.hpp:447, 453): nearest integer, ties to even; INT_MIN when that is not an int. *)
Definition cvtss_si32 (x : binary32) : Z :=
  match x with
  | B754_zero _ _ _ | B754_finite _ _ _ _ _ _ =>
      let n := Btrunc 24 128 (Bnearbyint 24 128 emax32 unop_nan_pl32 mode_NE x) in
      if (-2147483648 <=? n) && (n <=? 2147483647) then n else -2147483648
  | _ => -2147483648
  end.

(** Conversion from int to float (fmath.hpp:160-161, 455). *)
Definition float_of_int (n : Z) : binary32 := binary_normalize 24 128 prec32 emax32 mode_NE n 0 false.

(** _mm_min_ss and _mm_max_ss (fmath.hpp:449-450) return the second operand when comparison fails. *)
Definition min_ss (a b : binary32) : binary32 := match b32_compare a b with Some Lt => a | _ => b end.
(** _mm_max_ss, fmath.hpp:450 *)
Definition max_ss (a b : binary32) : binary32 := match b32_compare a b with Some Gt => a | _ => b end.

(** logf(2.0f), fmath.hpp:156: the nearest float, 0x3f317218. *)
Definition log_2 : binary32 := b32_of_bits 1060205080.
(** a[0] = n / log_2, fmath.hpp:160 *)
Definition exp_a : binary32 := b32_div mode_NE (float_of_int 1024) log_2.
(** b[0] = log_2 / n, fmath.hpp:161 *)
Definition exp_b : binary32 := b32_div mode_NE log_2 (float_of_int 1024).
(** f88, fmath.hpp:143 *)
Definition f88 : Z := 1118830592.

(** The argument after clamping, fmath.hpp:445-451.  Note that [limit] is the argument rounded to
    an integer, not its bits. *)
Definition exp_arg (x : binary32) : binary32 :=
  let limit := Z.land (cvtss_si32 x) 2147483647 in
  if f88 <? limit then max_ss (min_ss x (float_of_int 88)) (float_of_int (-88)) else x.

(** (u + 127) << 23, fmath.hpp:458: undefined for a negative number and for results of 2^32 and
    more (C++11 with defect report 1457). *)
Definition shift_exponent (u : Z) : outcome Z :=
  let e := u + 127 in
  if (0 <=? e) && (e * 8388608 <? 4294967296) then Ok (e * 8388608) else UB.

(** fmath::exp, fmath.hpp:438-459; [tbl] is expVar.tbl *)
Definition fast_exp (tbl : list Z) (x : binary32) : outcome binary32 :=
  let x1 := exp_arg x in
  let r := cvtss_si32 (b32_mult mode_NE x1 exp_a) in
  let v := Z.land r 1023 in
  let t := b32_minus mode_NE x1 (b32_mult mode_NE (float_of_int r) exp_b) in
  let u := Z.shiftr r 10 in
  let* hi := shift_exponent u in
  let* lo := vget tbl (Z.to_nat v) in
  let f := b32_of_bits (Z.lor hi lo) in
  Ok (b32_mult mode_NE (b32_plus mode_NE (float_of_int 1) t) f).
