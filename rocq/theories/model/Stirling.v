(** Rows of logarithms of Stirling numbers: src/special.cc:55-84, 136-142 and 273-277.
    Numbers are reals with the infinities and NaN of IEEE arithmetic; rounding is not
    modelled. *)
From Coq Require Import Reals.
From Verif.model Require Import Base VectorMath.
Local Open Scope R_scope.

(** float of src/special.cc:55-142 *)
Inductive ext := NInf | Fin (r : R) | PInf | NaN.

(** a + b, a < b, expf, logf on such numbers (as used in special.hpp:98-102). *)
Definition eadd (a b : ext) : ext :=
  match a, b with
  | NaN, _ | _, NaN | NInf, PInf | PInf, NInf => NaN
  | NInf, _ | _, NInf => NInf
  | PInf, _ | _, PInf => PInf
  | Fin x, Fin y => Fin (x + y)
  end.
(** unary minus, as used in special.hpp:101 *)
Definition eopp (a : ext) : ext :=
  match a with NInf => PInf | PInf => NInf | NaN => NaN | Fin x => Fin (- x) end.
(** operator<, as used in special.hpp:99-100 *)
Definition elt (a b : ext) : bool :=
  match a, b with
  | NaN, _ | _, NaN => false
  | NInf, NInf | PInf, _ => false
  | NInf, _ => true
  | Fin _, NInf => false
  | Fin _, PInf => true
  | Fin x, Fin y => if Rlt_dec x y then true else false
  end.
(** expf, special.hpp:101 *)
Definition eexp (a : ext) : ext :=
  match a with NInf => Fin 0 | Fin x => Fin (exp x) | PInf => PInf | NaN => NaN end.
(** logf, special.hpp:101 and src/special.cc:67 *)
Definition elog (a : ext) : ext :=
  match a with
  | NInf | NaN => NaN
  | PInf => PInf
  | Fin x => if Rlt_dec 0 x then Fin (ln x) else if Req_EM_T x 0 then NInf else NaN
  end.

(** log_sum_exp, include/distributions/special.hpp:98-102 *)
Definition log_sum_exp (x y : ext) : ext :=
  let mn := if elt x y then x else y in
  let mx := if elt x y then y else x in
  eadd mx (elog (eadd (Fin 1) (eexp (eadd mn (eopp mx))))).

(** log_stirling1_cache_add, src/special.cc:58-72; the cache is a static vector. *)
Definition cache_add (cache : list (list ext)) : outcome (list (list ext)) :=
  let n := length cache in
  let row := repeat (Fin 0) (n + 1) in
  let* row := vset row 0 NInf in
  let* row := vset row n (Fin 0) in
  if (1 <? n)%nat then
    let* prev := vget cache (n - 1) in
    let log_n_minus_1 := elog (Fin (INR (n - 1))) in
    let* row := vfor 1 (n - 1) (fun k row =>
      let* a := vget prev k in
      let* b := vget prev (k - 1) in
      vset row k (log_sum_exp (eadd log_n_minus_1 a) b)) row in
    Ok (cache ++ [row])
  else Ok (cache ++ [row]).

(** while (n >= cache.size()) cache_add(), src/special.cc:78-80; each pass adds one row,
    so [fuel] = n + 1 - size passes end the loop. *)
Fixpoint cache_fill (fuel n : nat) (cache : list (list ext)) : outcome (list (list ext)) :=
  if (length cache <=? n)%nat then
    match fuel with
    | O => Ok cache
    | S f => let* c := cache_add cache in cache_fill f n c
    end
  else Ok cache.

(** memcpy of [src] to the front of a buffer: undefined when the buffer is shorter (src/special.cc:83). *)
Definition memcpy (buf src : list ext) : outcome (list ext) :=
  if (length src <=? length buf)%nat then Ok (src ++ skipn (length src) buf) else UB.

(** get_log_stirling1_row_exact, src/special.cc:74-84; the mutex makes it one step. *)
Definition row_exact (n : nat) (cache : list (list ext)) (buf : list ext)
  : outcome (list (list ext) * list ext) :=
  let* cache := cache_fill (n + 1 - length cache) n cache in
  let* cached := vget cache n in
  let* buf := memcpy buf cached in
  Ok (cache, buf).

(** get_log_stirling1_row_approx, src/special.cc:86-134; the interior formula is left
    open ([inner n k]). *)
Definition row_approx (inner : nat -> nat -> ext) (n : nat) (buf : list ext) : outcome (list ext) :=
  let* buf := vset buf 0 NInf in
  let* buf := vset buf n (Fin 0) in
  vfor 1 (n - 1) (fun k buf => vset buf k (inner n k)) buf.

(** get_log_stirling1_row, src/special.cc:136-142 with its wrapper 273-277: the result
    vector is resized (keeping old entries) to n + 1. *)
Definition resize (buf : list ext) (n : nat) : list ext :=
  firstn n buf ++ repeat (Fin 0) (n - length buf).
(** get_log_stirling1_row, src/special.cc:136-142, 273-277 *)
Definition stirling1_row (inner : nat -> nat -> ext) (n : nat) (cache : list (list ext)) (result : list ext)
  : outcome (list (list ext) * list ext) :=
  let buf := resize result (n + 1) in
  if (n <? 32)%nat then row_exact n cache buf
  else let* buf := row_approx inner n buf in Ok (cache, buf).

(** A history of calls from any threads: the result vectors passed in and returned (src/special.cc:273-277). *)
Fixpoint stirling_calls (inner : nat -> nat -> ext) (calls : list (nat * list ext)) (cache : list (list ext))
  : outcome (list (list ext) * list (list ext)) :=
  match calls with
  | [] => Ok (cache, [])
  | (n, result) :: t =>
      let* (cache, row) := stirling1_row inner n cache result in
      let* (cache, rows) := stirling_calls inner t cache in
      Ok (cache, row :: rows)
  end.

(** The same for the exact routine, which any n may reach (src/special.cc:74-84). *)
Fixpoint exact_calls (calls : list (nat * list ext)) (cache : list (list ext))
  : outcome (list (list ext) * list (list ext)) :=
  match calls with
  | [] => Ok (cache, [])
  | (n, result) :: t =>
      let* (cache, row) := row_exact n cache (resize result (n + 1)) in
      let* (cache, rows) := exact_calls t cache in
      Ok (cache, row :: rows)
  end.
