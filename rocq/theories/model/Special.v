(** Table-driven approximations of include/distributions/special.hpp and src/special.cc.
    A float is its 32-bit pattern 0 <= b < 2^32; bit operations and range tests are
    modelled exactly, the arithmetic on looked-up numbers is over the reals. *)
From Coq Require Import Reals SpecFloat.
From Verif.model Require Import Base VectorMath SpecialTables.
Local Open Scope Z_scope.

(** memcpy(&intx, &x, 4), special.hpp:59-60 and 127: the pattern as a 32-bit int. *)
Definition as_int (b : Z) : Z := if b <? 2147483648 then b else b - 4294967296.

(** The number a pattern stands for (IEEE binary32) (special.hpp:127-129). *)
Definition float_of_bits (b : Z) : spec_float :=
  let s := 2147483648 <=? b in
  let e := (b / 8388608) mod 256 in
  let m := b mod 8388608 in
  if e =? 255 then (if m =? 0 then S754_infinity s else S754_nan)
  else if e =? 0 then (match m with Zpos p => S754_finite s p (-149) | _ => S754_zero s end)
  else match m + 8388608 with Zpos p => S754_finite s p (e - 150) | _ => S754_nan end.

(** Array read with an int index: undefined outside the array (the subscripts of special.hpp:66, 147-152, 229-232). *)
Definition zget {A} (l : list A) (i : Z) : outcome A :=
  if i <? 0 then UB else vget l (Z.to_nat i).

(** Model only: the value of a table literal of src/special.cc:144-271. *)
Definition literal (p : Z * Z) : R :=
  if 0 <=? snd p then (IZR (fst p) * IZR (10 ^ snd p))%R
  else (IZR (fst p) / IZR (10 ^ (- snd p)))%R.

(** FastLog::FastLog(N), src/special.cc:35-44, with log2 exact. *)
Definition fastlog_table (N : Z) : outcome (list R) :=
  let size := Z.to_nat (Z.shiftl 1 N) in
  vfor 0 size (fun i table =>
    let v := (1 + IZR (Z.of_nat i) * IZR (Z.shiftl 1 (23 - N)) / IZR (Z.shiftl 1 23))%R in
    vset table i (ln v / ln 2)%R) (repeat 0%R size).

(** The float nearest to the literal 0.69314718055994529f of special.hpp:66. *)
Definition ln2_float : R := (IZR 11629080 / IZR 16777216)%R.

(** FastLog::log, special.hpp:57-67; >> on a negative int is taken as arithmetic. *)
Definition fastlog_exp (b : Z) : Z := Z.land (Z.shiftr (as_int b) 23) 255 - 127.
(** special.hpp:63-64 *)
Definition fastlog_man (N b : Z) : Z := Z.shiftr (Z.land (as_int b) 8388607) (23 - N).
(** special.hpp:57-67 *)
Definition fastlog (N : Z) (table : list R) (b : Z) : outcome R :=
  let* t := zget table (fastlog_man N b) in
  Ok ((IZR (fastlog_exp b) + t) * ln2_float)%R.

(** fast_log, special.hpp:74-85, with GLOBAL_FAST_LOG_14 (72). *)
Definition fast_log (b : Z) : outcome R :=
  let* table := fastlog_table 14 in
  fastlog 14 table b.

(** The integer log2 of special.hpp:127-143 and 254-269. *)
Definition int_log2 (b : Z) : outcome Z :=
  let x := as_int b in
  let c := Z.shiftr x 23 in
  if negb (c =? 0) then Ok (c - 127)
  else
    let t := u32 (Z.shiftr x 16) in
    if negb (t =? 0) then let* l := zget LogTable256 t in Ok (l - 133)
    else
      let t := u32 (Z.shiftr x 8) in
      if negb (t =? 0) then let* l := zget LogTable256 t in Ok (l - 141)
      else let* l := zget LogTable256 x in Ok (l - 149).

(** Literals of the range tests: 2.5f, 4294967295.0f (rounds to 2^32), 0.0625f (special.hpp:121, 246). *)
Definition f_2_5 : spec_float := S754_finite false 10485760 (-22).
(** special.hpp:121, 246 *)
Definition f_2_32 : spec_float := S754_finite false 8388608 9.
(** special.hpp:246 *)
Definition f_1_16 : spec_float := S754_finite false 8388608 (-27).

(** Where an answer comes from: libm, or the polynomial with the given coefficients
    (constant term first) (special.hpp:122, 154-170, 247, 272). *)
Inductive answer := Libm | Poly (coeffs : list R).

(** fast_lgamma, special.hpp:114-171 *)
Definition fast_lgamma (b : Z) : outcome answer :=
  let y := float_of_bits b in
  if SFltb y f_2_5 || SFleb f_2_32 y then Ok Libm
  else
    let* c := int_log2 b in
    let pos := c * 6 in
    let* a5 := zget lgamma_approx_coeff5 pos in
    let* a4 := zget lgamma_approx_coeff5 (pos + 1) in
    let* a3 := zget lgamma_approx_coeff5 (pos + 2) in
    let* a2 := zget lgamma_approx_coeff5 (pos + 3) in
    let* a1 := zget lgamma_approx_coeff5 (pos + 4) in
    let* a0 := zget lgamma_approx_coeff5 (pos + 5) in
    Ok (Poly (map literal [a0; a1; a2; a3; a4; a5])).

(** fast_lgamma_nu, special.hpp:239-273, with poly_eval_3 (224-235) *)
Definition fast_lgamma_nu (b : Z) : outcome answer :=
  let nu := float_of_bits b in
  if SFltb nu f_1_16 || SFleb f_2_32 nu then Ok Libm
  else
    let* c := int_log2 b in
    let pos := Z.quot (c + 4) 2 * 4 in
    let* a0 := zget lgamma_nu_func_approx_coeff3 (pos + 3) in
    let* a1 := zget lgamma_nu_func_approx_coeff3 (pos + 2) in
    let* a2 := zget lgamma_nu_func_approx_coeff3 (pos + 1) in
    let* a3 := zget lgamma_nu_func_approx_coeff3 pos in
    Ok (Poly (map literal [a0; a1; a2; a3])).

(** fast_log_factorial, special.hpp:208-214: a table entry, or fast_lgamma of the 32-bit
    unsigned n + 1 (its conversion to float is not modelled). *)
Inductive log_fact := Table (v : R) | LgammaOf (arg : Z).
(** special.hpp:208-214 *)
Definition fast_log_factorial (n : Z) : outcome log_fact :=
  if n <? 64 then let* v := zget log_factorial_table n in Ok (Table (literal v))
  else Ok (LgammaOf (u32 (n + 1))).
