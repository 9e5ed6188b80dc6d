(** include/distributions/assert_close.hpp. *)
From Coq Require Import SpecFloat Reals.
From Verif.model Require Import Base.
From Verif.spec Require Import CloseSpec.

Section AreClose.
Context {F : Type}.
(** are_close on the floating-point type, assert_close.hpp:47-55. *)
Variable fclose : F -> F -> bool.
(** operator== on the floating-point type. *)
Variable feq : F -> F -> bool.

(** Loop of the vector overload, assert_close.hpp:61-69; also operator== of std::vector. *)
Fixpoint all2 {A} (p : A -> A -> bool) (x y : list A) : bool :=
  match x, y with
  | [], [] => true
  | a :: x', b :: y' => if p a b then all2 p x' y' else false
  | _, _ => false
  end.

(** The primary template, assert_close.hpp:42-45: operator==, which std::vector and
    std::pair apply member by member. *)
Fixpoint same (s : shape) : value F s -> value F s -> bool :=
  match s return value F s -> value F s -> bool with
  | SInt => Z.eqb
  | SNum => feq
  | SVec t => all2 (same t)
  | SPair a b => fun v w => if same a (fst v) (fst w) then same b (snd v) (snd w) else false
  end.

(** are_close, assert_close.hpp:42-78.  The pair overload (73-78) is declared after the
    vector overload (57-71) and in a namespace that argument-dependent lookup on
    std::pair does not search (for pairs of standard or built-in types), so the call on
    line 66 for elements that are pairs resolves to the primary template. *)
Fixpoint are_close (s : shape) : value F s -> value F s -> bool :=
  match s return value F s -> value F s -> bool with
  | SInt => Z.eqb
  | SNum => fclose
  | SVec t =>
      match t return (value F t -> value F t -> bool) -> list (value F t) -> list (value F t) -> bool with
      | SPair _ _ as p => fun _ x y =>
          if Nat.eqb (length x) (length y) then all2 (same p) x y else false
      | _ => fun rec x y =>
          if Nat.eqb (length x) (length y) then all2 rec x y else false
      end (are_close t)
  | SPair a b => fun v w => if are_close a (fst v) (fst w) then are_close b (snd v) (snd w) else false
  end.
End AreClose.

(** The floating-point specialisations (assert_close.hpp:47-55) in IEEE arithmetic with precision [prec]
    and exponent bound [emax], given the literal 1 and the constant assert_close_tol
    (line 40) in that format.  For float the three additions and the product are taken in
    float, i.e. fabs is the overload for float. *)
Definition ieee_close (prec emax : Z) (one tol : spec_float) (x y : spec_float) : bool :=
  SFleb (SFabs (SFsub prec emax x y))
        (SFmul prec emax
           (SFadd prec emax (SFadd prec emax one (SFabs x)) (SFabs y)) tol).

(** double: 1 and 1e-1f (13421773 * 2^-27) converted to double (assert_close.hpp:40, 54). *)
Definition one64 : spec_float := S754_finite false 4503599627370496 (-52).
(** assert_close_tol, assert_close.hpp:40 *)
Definition tol64 : spec_float := S754_finite false 7205759511166976 (-56).
(** are_close(double), assert_close.hpp:52-55 *)
Definition close64 : spec_float -> spec_float -> bool := ieee_close 53 1024 one64 tol64.

(** float: 1 and 1e-1f (assert_close.hpp:40, 49). *)
Definition one32 : spec_float := S754_finite false 8388608 (-23).
(** assert_close_tol, assert_close.hpp:40 *)
Definition tol32 : spec_float := S754_finite false 13421773 (-27).
(** are_close(float), assert_close.hpp:47-50 *)
Definition close32 : spec_float -> spec_float -> bool := ieee_close 24 128 one32 tol32.

(** are_close, assert_close.hpp:42-78, on double *)
Definition are_close64 (s : shape) := are_close close64 SFeqb s.
(** are_close, assert_close.hpp:42-78, on float *)
Definition are_close32 (s : shape) := are_close close32 SFeqb s.

(** The same test in exact arithmetic (assert_close.hpp:40). *)
Definition tolR : R := (IZR 13421773 / IZR 134217728)%R.
(** assert_close.hpp:47-55 without rounding *)
Definition closeR (x y : R) : bool :=
  if Rle_dec (Rabs (x - y)) ((1 + Rabs x + Rabs y) * tolR) then true else false.
(** operator== without NaN, assert_close.hpp:42-45 *)
Definition eqR (x y : R) : bool := if Req_EM_T x y then true else false.
(** are_close, assert_close.hpp:42-78, without rounding *)
Definition are_closeR (s : shape) := are_close closeR eqR s.
