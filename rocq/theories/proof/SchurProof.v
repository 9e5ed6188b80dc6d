(** Completing the square: a quadratic form in its first coordinate, and the determinant of what is left. *)
From Coq Require Import Reals Lra Lia List.
From mathcomp Require Import all_ssreflect all_algebra.
From Verif.model Require Import RField LinR.
From Verif.spec Require Import GaussSpec NiwSpec.
From Verif.proof Require Import NIWProof DetProof LinProof.
Set Implicit Arguments.
Unset Strict Implicit.
Unset Printing Implicit Defensive.
Import GRing.Theory.
Local Open Scope ring_scope.

Lemma det_schur n (A : 'M[R]_(1 + n)) : A^T = A -> A 0 0 != 0 ->
  \det A = A 0 0 * \det (drsubmx A - (A 0 0)^-1 *: ((ursubmx A)^T *m ursubmx A)).
Proof.
  move=> HT a0. set a := A 0 0. pose b : 'rV_n := ursubmx A. pose D : 'M_n := drsubmx A.
  have EA : A = block_mx (a%:M : 'M_1) b b^T D.
  { rewrite -{1}(submxK A) -/b -/D. congr block_mx.
    - apply/matrixP => i j. rewrite !ord1 !mxE eqxx mulr1n /a. congr (A _ _); exact: val_inj.
    - by rewrite /b trmx_ursub HT. }
  rewrite -/b -/D. set S := D - _.
  pose L := block_mx (1%:M : 'M[R]_1) 0 (a^-1 *: b^T) (1%:M : 'M_n).
  pose U := block_mx (a%:M : 'M[R]_1) b 0 S.
  have -> : A = L *m U.
  { rewrite {1}EA /L /U mulmx_block !mul1mx !mul0mx !addr0.
    congr block_mx.
    - by rewrite mul_mx_scalar scalerA mulfV // scale1r.
    - by rewrite /S -scalemxAl addrC subrK. }
  by rewrite det_mulmx /L /U det_lblock det_ublock !det1 !mul1r det_scalar1.
Qed.

(** what is left of the form once its first coordinate is integrated away *)
Definition schur (f : nat -> nat -> R) (i j : nat) : R :=
  Rminus (f i.+1 j.+1) (Rdiv (Rmult (f 0%N i.+1) (f 0%N j.+1)) (f 0%N 0%N)).

Lemma det_schurf (d : nat) (f : nat -> nat -> R) : spdf d.+1 f -> f 0%N 0%N <> IZR 0 ->
  det_R (mtab d.+1 f) = Rmult (f 0%N 0%N) (det_R (mtab d (schur f))).
Proof.
  move=> HS H0. rewrite !det_tab. case: (spdf_mx HS) => HT _.
  have E0 : (fmx d.+1 f : 'M_(1 + d)) 0 0 = f 0%N 0%N by rewrite mxE.
  rewrite (@det_schur d (fmx d.+1 f) HT); last by rewrite E0; apply/eqP.
  rewrite E0. congr (_ * \det _). apply/matrixP => i j. rewrite !mxE big_ord1 !mxE /= /schur.
  rewrite /Rdiv /Rminus. congr (_ + - _). rewrite mulrC. congr (_ * _).
  by rewrite /GRing.inv /= /invr'; case: eqP.
Qed.

Lemma det_invf (d : nat) (f : nat -> nat -> R) : spdf d f -> Rmult (det_R (mtab d (invf d f))) (det_R (mtab d f)) = IZR 1.
Proof.
  move=> H. have U : fmx d f \in unitmx by apply: pdm_unit; case: (spdf_mx H).
  rewrite !det_tab fmx_invf. have := congr1 determinant (mulVmx U). by rewrite det_mulmx det1.
Qed.
Lemma det_nil f : det_R (mtab 0 f) = IZR 1.
Proof. by rewrite det_tab det_mx00. Qed.
