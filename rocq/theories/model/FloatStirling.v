(** Rows of logarithms of Stirling numbers, src/special.cc:55-142 and 273-277, on IEEE single precision, with
    fast_log_factorial of include/distributions/special.hpp.  The mutex makes get_log_stirling1_row_exact one step
    (the threads are modelled in model/StirlingThreads.v). *)
From Coq Require Import Bool.
From Flocq Require Import Core BinarySingleNaN Binary Bits.
From Verif.model Require Import Base VectorMath FastExp FloatNum FastLog Special FastLgamma FloatLse.
Local Open Scope Z_scope.

(** log_factorial_table, src/special.cc:213-230, as the bits of the floats the literals round to *)
Definition log_factorial_bits : list Z := [
  0; 0; 1060205080; 1071994976; 1078682940; 1083781922; 1087539514; 1091069712;
  1093250164; 1095554121; 1097968557; 1099695290; 1100998097; 1102342869; 1103726495; 1105146293;
  1106599928; 1107690802; 1108448496; 1109220363; 1110005676; 1110803779; 1111614077; 1112436028;
  1113269136; 1114112945; 1114967036; 1115757942; 1116194700; 1116636059; 1117081860; 1117531960;
  1117986221; 1118444515; 1118906722; 1119372729; 1119842428; 1120315718; 1120792504; 1121272694;
  1121756203; 1122242948; 1122732852; 1123225840; 1123721841; 1124147130; 1124398044; 1124650367;
  1124904070; 1125159125; 1125415503; 1125673179; 1125932128; 1126192325; 1126453747; 1126716371;
  1126980177; 1127245142; 1127511248; 1127778473; 1128046800; 1128316210; 1128586686; 1128858211].

(** fast_log_factorial, special.hpp:208-214; [libm] is lgammaf *)
Definition fast_log_factorial32 (daz : bool) (libm : binary32 -> binary32) (n : Z) : outcome binary32 :=
  if n <? 64 then coeff log_factorial_bits n else fast_log_factorial_large daz libm n.

(** -INFINITY, src/special.cc:63, 121 *)
Definition b_minf : binary32 := B754_infinity 24 128 true.
(** 0, src/special.cc:64, 122 *)
Definition b_zero : binary32 := float_of_int 0.
(** euler_gamma, src/special.cc:116: 0.57721566490153286060f *)
Definition b_gamma : binary32 := b32_of_bits 1058260072.

Section Rows.
  (** libm's expf and logf; the table of fmath::exp and libm's log2 behind fast_log; lgammaf
      (src/special.cc:67, 69, 113-130) *)
  Variables (expf logf : binary32 -> binary32) (tbl : list Z) (log2 : binary32 -> binary32) (daz : bool) (libm : binary32 -> binary32).

  (** log_stirling1_cache_add, src/special.cc:58-72 *)
  Definition cache_add32 (cache : list (list binary32)) : outcome (list (list binary32)) :=
    let n := length cache in
    let row := repeat b_zero (n + 1) in
    let* row := vset row 0 b_minf in
    let* row := vset row n b_zero in
    if (1 <? n)%nat then
      let* prev := vget cache (n - 1) in
      let log_n_minus_1 := logf (float_of_int (Z.of_nat (n - 1))) in
      let* row := vfor 1 (n - 1) (fun k row =>
        let* a := vget prev k in
        let* b := vget prev (k - 1) in
        vset row k (lse32 expf logf (b32_plus mode_NE log_n_minus_1 a) b)) row in
      Ok (cache ++ [row])
    else Ok (cache ++ [row]).

  (** while (n >= cache.size()) cache_add(), src/special.cc:78-80; [fuel] = n + 1 - size passes end the loop *)
  Fixpoint cache_fill32 (fuel n : nat) (cache : list (list binary32)) : outcome (list (list binary32)) :=
    if (length cache <=? n)%nat then
      match fuel with
      | O => Ok cache
      | S f => let* c := cache_add32 cache in cache_fill32 f n c
      end
    else Ok cache.

  (** memcpy, src/special.cc:83: undefined when the buffer is shorter *)
  Definition memcpy32 (buf src : list binary32) : outcome (list binary32) :=
    if (length src <=? length buf)%nat then Ok (src ++ skipn (length src) buf) else UB.

  (** get_log_stirling1_row_exact, src/special.cc:74-84 *)
  Definition row_exact32 (n : nat) (cache : list (list binary32)) (buf : list binary32)
    : outcome (list (list binary32) * list binary32) :=
    let* cache := cache_fill32 (n + 1 - length cache) n cache in
    let* cached := vget cache n in
    let* buf := memcpy32 buf cached in
    Ok (cache, buf).

  (** softness = n / 3.0 in double, then float, src/special.cc:118 *)
  Definition softness (n : nat) : binary32 :=
    narrow (b64_div mode_NE (binary_normalize 53 1024 prec64 emax64 mode_NE (Z.of_nat n) 0 false)
      (binary_normalize 53 1024 prec64 emax64 mode_NE 3 0 false)).
  (** log_stuff, src/special.cc:117 *)
  Definition log_stuff (n : nat) : binary32 := logf (b32_plus mode_NE b_gamma (logf (float_of_int (Z.of_nat (n - 1))))).
  (** log_n_squared_over_two, src/special.cc:115; n * n is a 64-bit size_t *)
  Definition log_n_squared_over_two (n : nat) : binary32 :=
    logf (b32_div mode_NE (float_of_int (Z.modulo (Z.of_nat n * Z.of_nat n) 18446744073709551616)) (float_of_int 2)).

  (** the interior point k, src/special.cc:125-133; size_t arguments are truncated to 32 bits on the way into
      fast_log_factorial *)
  Definition inner32 (n k : nat) : outcome binary32 :=
    let fact m := fast_log_factorial32 daz libm (Z.modulo (Z.of_nat m) 4294967296) in
    let* f := fact (n - 1)%nat in
    let* f1 := fact (k - 1)%nat in
    let approx1 := b32_plus mode_NE (b32_minus mode_NE f f1)
                     (b32_mult mode_NE (float_of_int (Z.of_nat (k - 1))) (log_stuff n)) in
    let* f2 := fact (n - k)%nat in
    let approx2 := b32_minus mode_NE (b32_mult mode_NE (float_of_int (Z.of_nat (n - k))) (log_n_squared_over_two n)) f2 in
    let q := b32_div mode_NE (float_of_int (-1)) (softness n) in
    let* l := fast_lse tbl log2 (b32_mult mode_NE q approx1) (b32_mult mode_NE q approx2) in
    Ok (b32_mult mode_NE (b32_opp (softness n)) l).

  (** get_log_stirling1_row_approx, src/special.cc:86-134; the factorial of n - 1 is computed before the loop in the
      code, in every pass here *)
  Definition row_approx32 (n : nat) (buf : list binary32) : outcome (list binary32) :=
    let* buf := vset buf 0 b_minf in
    let* buf := vset buf n b_zero in
    vfor 1 (n - 1) (fun k buf => let* v := inner32 n k in vset buf k v) buf.

  (** resize of the result vector, src/special.cc:273-277 *)
  Definition resize32 (buf : list binary32) (n : nat) : list binary32 :=
    firstn n buf ++ repeat b_zero (n - length buf).
  (** get_log_stirling1_row, src/special.cc:136-142, 273-277 *)
  Definition stirling1_row32 (n : nat) (cache : list (list binary32)) (result : list binary32)
    : outcome (list (list binary32) * list binary32) :=
    let buf := resize32 result (n + 1) in
    if (n <? 32)%nat then row_exact32 n cache buf
    else let* buf := row_approx32 n buf in Ok (cache, buf).

  (** A history of calls: the result vectors passed in and returned (src/special.cc:273-277). *)
  Fixpoint stirling_calls32 (calls : list (nat * list binary32)) (cache : list (list binary32))
    : outcome (list (list binary32) * list (list binary32)) :=
    match calls with
    | [] => Ok (cache, [])
    | (n, result) :: t =>
        let* (cache, row) := stirling1_row32 n cache result in
        let* (cache, rows) := stirling_calls32 t cache in
        Ok (cache, row :: rows)
    end.
End Rows.
