(** Determinants: rank-one updates and positive definite matrices. *)
From Coq Require Import Reals Lra.
From mathcomp Require Import all_ssreflect all_algebra.
From Verif.model Require Import RField.
Set Implicit Arguments.
Unset Strict Implicit.
Unset Printing Implicit Defensive.
Import GRing.Theory.
Local Open Scope ring_scope.

Section Generic.
  Variable F : fieldType.

  Lemma det_rank1_id n (u : 'cV[F]_n) (v : 'rV[F]_n) : \det (1%:M + u *m v) = 1 + (v *m u) 0 0.
  Proof.
    pose L := block_mx 1%:M 0 v (1%:M : 'M[F]_1).
    pose M := block_mx (1%:M + u *m v) u 0 (1%:M : 'M[F]_1).
    pose K := block_mx 1%:M 0 (- v) (1%:M : 'M[F]_1).
    have E : L *m M *m K = block_mx 1%:M u 0 (1%:M + v *m u).
    { rewrite /L /M /K !mulmx_block !mul1mx !mulmx1 !mul0mx !mulmx0 !addr0.
      congr block_mx.
      - by rewrite mulmxN addrK.
      - by rewrite add0r.
      - by rewrite mulmxN mulmxDr mulmx1 mulmxDl mul1mx mulmxA [v + _]addrC subrr.
      - by rewrite add0r addrC. }
    have := congr1 determinant E.
    rewrite !det_mulmx /L /M /K det_lblock det_ublock det_lblock det_ublock !det1 !mul1r !mulr1 => ->.
    by rewrite det_mx11 !mxE eqxx.
  Qed.

  Lemma det_rank1 n (A : 'M[F]_n) (u : 'cV[F]_n) (v : 'rV[F]_n) : A \in unitmx ->
    \det (A + u *m v) = \det A * (1 + (v *m invmx A *m u) 0 0).
  Proof.
    move=> HA. have -> : A + u *m v = A *m (1%:M + (invmx A *m u) *m v).
    { by rewrite mulmxDr mulmx1 !mulmxA mulmxV // mul1mx. }
    by rewrite det_mulmx det_rank1_id mulmxA.
  Qed.
End Generic.

Definition pdm n (A : 'M[R]_n) := forall x : 'cV[R]_n, x != 0 -> Rlt 0 ((x^T *m A *m x) 0 0).

Lemma pdm_unit n (A : 'M[R]_n) : pdm A -> A \in unitmx.
Proof.
  move=> H. rewrite -unitmx_tr -row_free_unit -kermx_eq0. apply/negP => /negP K.
  have [v [Hv Kv]] : exists v : 'rV[R]_n, v != 0 /\ v *m A^T = 0.
  { case/rowV0Pn: K => v /sub_kermxP Kv Hv. by exists v. }
  have X : v^T != 0 by rewrite -(inj_eq trmx_inj) trmxK trmx0.
  move: (H _ X). rewrite trmxK -mulmxA.
  have -> : A *m v^T = 0 by rewrite -(trmxK A) -trmx_mul Kv trmx0.
  rewrite mulmx0 mxE. exact: Rlt_irrefl.
Qed.

Lemma quad_block n (a : 'M[R]_1) (b : 'rV[R]_n) (c : 'cV[R]_n) (D : 'M[R]_n) (s : 'M[R]_1) (y : 'cV[R]_n) :
  (col_mx s y)^T *m block_mx a b c D *m col_mx s y =
  s^T *m a *m s + y^T *m c *m s + (s^T *m b *m y + y^T *m D *m y).
Proof. by rewrite tr_col_mx mul_row_block mul_row_col !mulmxDl. Qed.

Lemma det_pd_step n (A : 'M[R]_(1 + n)) :
  (forall B : 'M[R]_n, B^T = B -> pdm B -> Rlt 0 (\det B)) -> A^T = A -> pdm A -> Rlt 0 (\det A).
Proof.
  move=> IH HT HP.
  pose a := A 0 0. pose b : 'rV_n := ursubmx A. pose D : 'M_n := drsubmx A.
  have EA : A = block_mx (a%:M : 'M_1) b b^T D.
  { rewrite -{1}(submxK A) -/b -/D. congr block_mx.
    - apply/matrixP => i j. rewrite !ord1 !mxE eqxx mulr1n /a. congr (A _ _); exact: val_inj.
    - by rewrite /b trmx_ursub HT. }
  have Ha : Rlt 0 a.
  { pose e : 'cV[R]_(1 + n) := col_mx 1%:M 0.
    have He : e != 0.
    { apply/negP => /eqP E. have := congr1 usubmx E. rewrite /e col_mxKu linear0.
      move/matrixP/(_ 0 0)/eqP. by rewrite !mxE eqxx oner_eq0. }
    have := HP e He. rewrite EA /e quad_block.
    by rewrite trmx1 trmx0 !mul1mx !mul0mx !addr0 mulmx0 mulmx1 !addr0 !mxE eqxx mulr1n. }
  pose S := D - a^-1 *: (b^T *m b).
  have a0 : a != 0 by apply/eqP => E; rewrite E in Ha; exact: (Rlt_irrefl _ Ha).
  have ED : \det A = a * \det S.
  { pose L := block_mx (1%:M : 'M[R]_1) 0 (a^-1 *: b^T) (1%:M : 'M_n).
    pose U := block_mx (a%:M : 'M[R]_1) b 0 S.
    have -> : A = L *m U.
    { rewrite EA /L /U mulmx_block !mul1mx !mul0mx !addr0.
      congr block_mx.
      - by rewrite mul_mx_scalar scalerA mulfV // scale1r.
      - by rewrite /S -scalemxAl addrC subrK. }
    by rewrite det_mulmx /L /U det_lblock det_ublock !det1 !mul1r det_scalar1. }
  rewrite ED. apply: Rmult_lt_0_compat => //. apply: IH.
  - rewrite /S linearB linearZ /= trmx_mul trmxK. congr (_ - _).
    by rewrite /D trmx_drsub HT.
  - move=> y Hy. pose x : 'cV[R]_(1 + n) := col_mx (- (a^-1 *: (b *m y))) y.
    have Hx : x != 0.
    { apply: contra Hy => /eqP E. have := congr1 dsubmx E. rewrite /x col_mxKd => ->. by rewrite linear0. }
    have := HP x Hx. rewrite EA /x quad_block.
    set t := b *m y.
    have Tt : t^T = t by rewrite [t]mx11_scalar tr_scalar_mx.
    have Yt : y^T *m b^T = t by rewrite -trmx_mul.
    have -> : (- (a^-1 *: t))^T = - (a^-1 *: t) by rewrite linearN linearZ /= Tt.
    rewrite Yt -[_ *m b *m y]mulmxA -/t.
    have -> : - (a^-1 *: t) *m a%:M = - t.
    { by rewrite mul_mx_scalar scalerN scalerA mulfV // scale1r. }
    rewrite mulNmx addNr add0r.
    have -> : y^T *m S *m y = y^T *m D *m y - a^-1 *: (t *m t).
    { by rewrite /S mulmxBr mulmxBl -scalemxAr -scalemxAl mulmxA Yt -[t *m b *m y]mulmxA. }
    by rewrite mulNmx -scalemxAl addrC.
Qed.

Lemma det_pd n (A : 'M[R]_n) : A^T = A -> pdm A -> Rlt 0 (\det A).
Proof.
  elim: n A => [|n IH] A HT HP.
  - rewrite det_mx00. exact: Rlt_0_1.
  - exact: (@det_pd_step n A IH HT HP).
Qed.
