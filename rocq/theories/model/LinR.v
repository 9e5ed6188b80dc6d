(** Eigen's determinant() and inverse() in exact arithmetic: the determinant and the inverse
    of mathcomp's matrices over the reals (niw.hpp:304-308, random.hpp:170-171).  For a
    singular matrix Eigen's inverse is unspecified; here it is the matrix itself (invmx). *)
From Coq Require Import Reals.
From mathcomp Require Import all_ssreflect all_algebra.
From Verif.model Require Import RField.
From Verif.spec Require Import NiwSpec.

(** Model only: a list of rows as a matrix (Eigen matrices of niw.hpp:67-68). *)
Definition mx_of (d : nat) (A : list (list R)) : 'M[R]_d := \matrix_(i, j) entry A i j.
(** determinant(), niw.hpp:302, 305 and random.hpp:172 *)
Definition det_R (A : list (list R)) : R := (\det (mx_of (size A) A))%R.
(** inverse(), random.hpp:171, 244, 246 *)
Definition inv_R (A : list (list R)) : list (list R) :=
  [seq [seq invmx (mx_of (size A) A) i j | j <- enum 'I_(size A)] | i <- enum 'I_(size A)].
