(** Facts about det_R and inv_R on tables of functions, stated without mathcomp. *)
From Coq Require Import Reals Lra.
From mathcomp Require Import all_ssreflect all_algebra.
From Verif.model Require Import RField LinR.
From Verif.spec Require Import GaussSpec NiwSpec.
From Verif.proof Require Import NIWProof DetProof.
Set Implicit Arguments.
Unset Strict Implicit.
Unset Printing Implicit Defensive.
Import GRing.Theory.
Local Open Scope ring_scope.

Lemma size_tab A d (f : nat -> A) : size (tab d f) = d.
Proof. exact: tab_length. Qed.

Lemma rsum_iota (f : nat -> R) d s : rsum (List.map f (List.seq s d)) = \sum_(i < d) f (s + i)%N.
Proof.
  elim: d s => [|d IH] s; first by rewrite big_ord0.
  rewrite big_ord_recl /= IH addn0. congr (_ + _). apply: eq_bigr => i _. by rewrite addSnnS.
Qed.
Lemma rsum_big (f : nat -> R) d : rsum (List.map f (List.seq 0 d)) = \sum_(i < d) f i.
Proof. exact: rsum_iota. Qed.

Definition fmx d (f : nat -> nat -> R) : 'M[R]_d := \matrix_(i, j) f i j.
Lemma mx_of_tab d f : mx_of d (mtab d f) = fmx d f.
Proof.
  apply/matrixP => i j. rewrite !mxE. apply: mtab_entry; exact/ltP.
Qed.
Lemma det_tab d f : det_R (mtab d f) = \det (fmx d f).
Proof. by rewrite /det_R size_tab mx_of_tab. Qed.
Definition fvec d (f : nat -> R) : 'cV[R]_d := \col_i f i.

(** entries of the inverse *)
Definition invf d f (i j : nat) : R := entry (inv_R (mtab d f)) i j.

Lemma nth_list (A : Type) (x : A) l i : List.nth i l x = nth x l i.
Proof. by elim: l i => [|a l IH] [|i] //=. Qed.

Lemma invf_ord d f (i j : 'I_d) : invf d f i j = invmx (fmx d f) i j.
Proof.
  rewrite /invf /inv_R /entry /coord !nth_list size_tab mx_of_tab.
  rewrite (nth_map i) ?size_enum_ord // nth_ord_enum (nth_map j) ?size_enum_ord // nth_ord_enum. done.
Qed.

Lemma inv_tab d f : inv_R (mtab d f) = mtab d (invf d f).
Proof.
  have S1 : size (inv_R (mtab d f)) = d by rewrite /inv_R size_map size_tab size_enum_ord.
  apply: (@eq_from_nth _ [::]) => [|i]; first by rewrite S1 size_tab.
  rewrite S1 => Hi.
  have -> : nth [::] (mtab d (invf d f)) i = tab d (invf d f i).
  { rewrite -nth_list. apply: List.nth_error_nth. apply: (tab_nth d (fun i => tab d (invf d f i))). exact/ltP. }
  have S2 : size (nth [::] (inv_R (mtab d f)) i) = d.
  { rewrite /inv_R size_tab (nth_map (Ordinal Hi)) ?size_enum_ord // size_map size_enum_ord. done. }
  apply: (@eq_from_nth _ 0) => [|j]; first by rewrite S2 size_tab.
  rewrite S2 => Hj. rewrite -!nth_list.
  have -> : List.nth j (tab d (invf d f i)) 0 = invf d f i j by apply: (@tab_coord d (invf d f i) j); exact/ltP.
  by [].
Qed.

(** Symmetric positive definite tables *)
Definition spdf d (f : nat -> nat -> R) : Prop :=
  (forall i j, (i < d)%coq_nat -> (j < d)%coq_nat -> f i j = f j i) /\
  forall x, (exists i, (i < d)%coq_nat /\ x i <> IZR 0) -> Rlt (IZR 0) (quad d f x).

Lemma quad_mx d f x : quad d f x = ((fvec d x)^T *m fmx d f *m fvec d x) 0 0.
Proof.
  rewrite /quad (rsum_big (fun i => rsum _)).
  rewrite mxE. under [RHS]eq_bigr => j _ do rewrite !mxE big_distrl /=.
  rewrite exchange_big /=. apply: eq_bigr => i _. rewrite (rsum_big (fun j => _)).
  apply: eq_bigr => j _. by rewrite !mxE.
Qed.

Lemma spdf_mx d f : spdf d f -> (fmx d f)^T = fmx d f /\ pdm (fmx d f).
Proof.
  case=> H1 H2. split.
  - apply/matrixP => i j. rewrite !mxE. apply: H1; exact/ltP.
  - move=> x Hx. pose xf (k : nat) : R := if insub k is Some i then x i 0 else 0.
    have E : fvec d xf = x.
    { apply/matrixP => i j. rewrite !mxE /xf valK (ord1 j). done. }
    rewrite -E -quad_mx. apply: H2.
    case: (pickP (fun i => x i 0 != 0)) => [i Hi|N].
    + exists i. split; first exact/ltP. rewrite /xf valK. exact/eqP.
    + case/negP: Hx. apply/eqP/matrixP => i j. rewrite (ord1 j) mxE. apply/eqP. by move: (N i) => /negbFE.
Qed.

Lemma det_spd d f : spdf d f -> Rlt (IZR 0) (det_R (mtab d f)).
Proof. move=> H. rewrite det_tab. case: (spdf_mx H) => ? ?. exact: det_pd. Qed.

Lemma det_scale d f c : det_R (mtab d (fun i j => Rmult c (f i j))) = Rmult (pow c d) (det_R (mtab d f)).
Proof.
  rewrite !det_tab. have -> : fmx d (fun i j => Rmult c (f i j)) = c *: fmx d f.
  { by apply/matrixP => i j; rewrite !mxE. }
  rewrite detZ. congr (_ * _). elim: d {f} => [|d IH] //. by rewrite exprS IH.
Qed.

Lemma invf_scale d f c : spdf d f -> c <> IZR 0 -> forall i j, (i < d)%coq_nat -> (j < d)%coq_nat ->
  invf d (fun i j => Rmult c (f i j)) i j = Rmult (Rinv c) (invf d f i j).
Proof.
  move=> H Hc i j /ltP Hi /ltP Hj.
  have U : fmx d f \in unitmx by apply: pdm_unit; case: (spdf_mx H).
  rewrite -[i]/(val (Ordinal Hi)) -[j]/(val (Ordinal Hj)) !invf_ord.
  have -> : fmx d (fun i j => Rmult c (f i j)) = c *: fmx d f.
  { by apply/matrixP => i' j'; rewrite !mxE. }
  have C0 : c != 0 by apply/eqP.
  rewrite invmxZ ?mxE; last by rewrite unitmxZ // unitfE.
  congr (_ * _). rewrite /GRing.inv /= /invr'. by rewrite (negbTE C0).
Qed.

(** The inverse of a symmetric positive definite matrix is one. *)
Lemma fmx_invf d f : fmx d (invf d f) = invmx (fmx d f).
Proof. apply/matrixP => i j. by rewrite mxE invf_ord. Qed.
Lemma spdf_inv d f : spdf d f -> spdf d (invf d f).
Proof.
  move=> H. case: (spdf_mx H) => S P. have U := pdm_unit P.
  have Si : (invmx (fmx d f))^T = invmx (fmx d f) by rewrite trmx_inv S.
  split.
  - move=> i j /ltP Hi /ltP Hj. rewrite -[i]/(val (Ordinal Hi)) -[j]/(val (Ordinal Hj)) !invf_ord.
    by rewrite -{1}Si mxE.
  - move=> x [i [/ltP Hi Hx]]. rewrite quad_mx fmx_invf.
    have -> : (fvec d x)^T *m invmx (fmx d f) *m fvec d x =
      (invmx (fmx d f) *m fvec d x)^T *m fmx d f *m (invmx (fmx d f) *m fvec d x).
    { rewrite trmx_mul Si -!mulmxA. congr (_ *m (_ *m _)). by rewrite mulmxA mulmxV // mul1mx. }
    apply: P. apply/eqP => E.
    have E2 : fvec d x = 0 by rewrite -(mul1mx (fvec d x)) -(mulmxV U) -mulmxA E mulmx0.
    move/matrixP: E2 => /(_ (Ordinal Hi) 0). rewrite !mxE /=. exact: Hx.
Qed.
(** inverse of the inverse *)
Lemma invf_invf d f : spdf d f -> forall i j, (i < d)%coq_nat -> (j < d)%coq_nat -> invf d (invf d f) i j = f i j.
Proof.
  move=> H i j /ltP Hi /ltP Hj. rewrite -[i]/(val (Ordinal Hi)) -[j]/(val (Ordinal Hj)) invf_ord fmx_invf invmxK. by rewrite mxE.
Qed.

Lemma det_update d f c u : spdf d f ->
  det_R (mtab d (fun i j => Rplus (f i j) (Rmult c (Rmult (u i) (u j))))) =
  Rmult (det_R (mtab d f)) (Rplus (IZR 1) (Rmult c (quad d (invf d f) u))).
Proof.
  move=> H. rewrite !det_tab.
  have -> : fmx d (fun i j => Rplus (f i j) (Rmult c (Rmult (u i) (u j)))) = fmx d f + (c *: fvec d u) *m (fvec d u)^T.
  { apply/matrixP => i j. rewrite !mxE big_ord1 !mxE. congr (_ + _). exact: mulrA. }
  rewrite det_rank1; last by apply: pdm_unit; case: (spdf_mx H).
  congr (_ * (_ + _)). rewrite -scalemxAr mxE quad_mx. congr (_ * _).
  congr ((_ *m _ *m _) _ _). apply/matrixP => i j. by rewrite mxE invf_ord.
Qed.
