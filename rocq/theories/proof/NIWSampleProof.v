(** Cholesky factors, multivariate normal, Wishart and inverse Wishart draws. *)
From Coq Require Import List Reals Lra Lia.
From Verif.model Require Import Base Num NumR Component NIW LinR Proto NIWSample.
From Verif.spec Require Import GroupSpec GaussSpec NiwSpec.
From Verif.proof Require Import BaseProof NIWProof LinProof NIWScore ProtoProof.
Import ListNotations.
Local Open Scope R_scope.

Notation Sum d h := (rsum (map h (seq 0 d))).

Lemma rsum_S h d : Sum (S d) h = h O + Sum d (fun i => h (S i)).
Proof. cbn [seq map rsum]. now rewrite <- seq_shift, map_map. Qed.
Lemma Sum_ext h k d : (forall i, (i < d)%nat -> h i = k i) -> Sum d h = Sum d k.
Proof. intro H. apply rsum_ext. intros i Hi. apply in_seq in Hi. apply H. lia. Qed.
Lemma Sum_scal c h d : Sum d (fun i => c * h i) = c * Sum d h.
Proof. apply rsum_scal. Qed.
Lemma Sum_zero d : Sum d (fun _ => 0) = 0.
Proof. induction d as [|d IH]; [reflexivity|]. rewrite rsum_S, IH. lra. Qed.
Lemma Sum_swap h a b : Sum a (fun i => Sum b (fun j => h i j)) = Sum b (fun j => Sum a (fun i => h i j)).
Proof.
  induction a as [|a IH] in h |- *; [cbn; symmetry; apply Sum_zero|].
  rewrite rsum_S, IH, <- rsum_plus. apply Sum_ext. intros j _. now rewrite rsum_S.
Qed.
Lemma Sum_nonneg h d : (forall i, (i < d)%nat -> 0 <= h i) -> 0 <= Sum d h.
Proof.
  induction d as [|d IH] in h |- *; intro H; [cbn; lra|]. rewrite rsum_S. specialize (H O ltac:(lia)) as H0.
  specialize (IH (fun i => h (S i)) ltac:(intros; apply H; lia)). lra.
Qed.
Lemma Sum_pos h d : (forall i, (i < d)%nat -> 0 <= h i) -> (exists i, (i < d)%nat /\ 0 < h i) -> 0 < Sum d h.
Proof.
  induction d as [|d IH] in h |- *; intros H (i & Hi & Hp); [lia|]. rewrite rsum_S.
  pose proof (H O ltac:(lia)) as H0. destruct i as [|i].
  - pose proof (Sum_nonneg (fun i => h (S i)) d ltac:(intros; apply H; lia)). lra.
  - specialize (IH (fun i => h (S i)) ltac:(intros; apply H; lia) ltac:(exists i; split; [lia|exact Hp])). lra.
Qed.
Lemma Sum_single h d k : (k < d)%nat -> (forall i, (i < d)%nat -> i <> k -> h i = 0) -> Sum d h = h k.
Proof.
  induction d as [|d IH] in h, k |- *; intros Hk H; [lia|]. rewrite rsum_S. destruct k as [|k].
  - rewrite (Sum_ext _ (fun _ => 0)) by (intros; apply H; lia). rewrite Sum_zero. lra.
  - rewrite (H O) by lia. rewrite (IH (fun i => h (S i)) k); [lra|lia|]. intros i Hi Hne. apply H; lia.
Qed.

(** The factor *)
Definition col (f : nat -> nat -> R) (i : nat) : R := f (S i) O / sqrt (f O O).
Definition schur (f : nat -> nat -> R) (i j : nat) : R := f (S i) (S j) - col f i * col f j.
Fixpoint cholf (d : nat) (f : nat -> nat -> R) : nat -> nat -> R :=
  match d with
  | O => fun _ _ => 0
  | S d' => fun i j => match i, j with
      | O, O => sqrt (f O O) | O, S _ => 0 | S i', O => col f i' | S i', S j' => cholf d' (schur f) i' j' end
  end.

Lemma quad_S d f x : (forall i, (i < S d)%nat -> f i O = f O i) -> 0 < f O O ->
  quad (S d) f x = Rsqr (sqrt (f O O) * x O + Sum d (fun i => x (S i) * col f i)) + quad d (schur f) (fun i => x (S i)).
Proof.
  intros Hs Hp. set (s := sqrt (f O O)). assert (Hs2 : s * s = f O O) by (apply sqrt_sqrt; lra).
  assert (Hs0 : s <> 0) by (intro E; rewrite E in Hs2; lra).
  unfold schur. rewrite (quad_ext d _ (fun i j => f (S i) (S j) + (-1) * (col f i * col f j))) by (intros; ring).
  rewrite quad_update. set (t := Sum d (fun i => x (S i) * col f i)).
  unfold quad at 1. rewrite rsum_S, rsum_S.
  assert (Hc : forall i, f (S i) O = s * col f i) by (intro i; unfold col; fold s; field; exact Hs0).
  rewrite (Sum_ext (fun i => x O * f O (S i) * x (S i)) (fun i => (x O * s) * (x (S i) * col f i))).
  2:{ intros i Hi. rewrite <- Hs by lia. rewrite Hc. ring. }
  rewrite Sum_scal. fold t.
  rewrite (Sum_ext (fun i => Sum (S d) (fun j => x (S i) * f (S i) j * x j))
    (fun i => (x O * s) * (x (S i) * col f i) + Sum d (fun j => x (S i) * f (S i) (S j) * x (S j)))).
  2:{ intros i Hi. rewrite rsum_S, Hc. ring. }
  rewrite rsum_plus, Sum_scal. fold t. fold (quad d (fun i j => f (S i) (S j)) (fun i => x (S i))).
  rewrite <- Hs2. unfold Rsqr. ring.
Qed.
Lemma spdf_pivot d f : spdf (S d) f -> 0 < f O O.
Proof.
  intros [_ P]. specialize (P (fun i => match i with O => 1 | _ => 0 end)).
  assert (H : 0 < quad (S d) f (fun i => match i with O => 1 | _ => 0 end)) by (apply P; exists O; split; [lia|lra]).
  unfold quad in H. rewrite rsum_S, rsum_S in H.
  rewrite (Sum_ext _ (fun _ => 0)) in H by (intros; ring). rewrite Sum_zero in H.
  rewrite (Sum_ext _ (fun _ => 0)) in H; [rewrite Sum_zero in H; lra|].
  intros i _. rewrite (Sum_ext _ (fun _ => 0)) by (intros; ring). apply Sum_zero.
Qed.
Lemma spdf_schur d f : spdf (S d) f -> spdf d (schur f).
Proof.
  intro H. pose proof (spdf_pivot d f H) as Hp. destruct H as [Hs P]. split.
  - intros i j Hi Hj. unfold schur. rewrite (Hs (S i) (S j)) by lia. ring.
  - intros y (i & Hi & Hy). set (t := Sum d (fun i => y i * col f i)).
    assert (Hs0 : sqrt (f O O) <> 0) by (apply Rgt_not_eq, sqrt_lt_R0, Hp).
    specialize (P (fun k => match k with O => - t / sqrt (f O O) | S k => y k end)).
    rewrite quad_S in P; [|intros k Hk; apply Hs; lia|exact Hp]. fold t in P.
    replace (sqrt (f O O) * (- t / sqrt (f O O)) + t) with 0 in P by (field; exact Hs0).
    rewrite Rsqr_0, Rplus_0_l in P. apply P. exists (S i). split; [lia|exact Hy].
Qed.
Lemma schur_spdf d f : (forall i j, (i < S d)%nat -> (j < S d)%nat -> f i j = f j i) -> 0 < f O O -> spdf d (schur f) -> spdf (S d) f.
Proof.
  intros Hs Hp [_ P]. split; [exact Hs|]. intros x (i & Hi & Hx).
  rewrite quad_S; [|intros k Hk; apply Hs; lia|exact Hp].
  pose proof (Rle_0_sqr (sqrt (f O O) * x O + Sum d (fun i => x (S i) * col f i))) as Hq.
  destruct (Classical_Prop.classic (exists k, (k < d)%nat /\ x (S k) <> 0)) as [E|E].
  - specialize (P (fun i => x (S i)) E). lra.
  - assert (Z : forall k, (k < d)%nat -> x (S k) = 0).
    { intros k Hk. destruct (Req_dec (x (S k)) 0); [assumption|]. exfalso. eauto. }
    destruct i as [|i]; [|exfalso; apply Hx, Z; lia].
    rewrite (Sum_ext _ (fun _ => 0)) by (intros k Hk; rewrite Z by exact Hk; ring). rewrite Sum_zero, Rplus_0_r.
    assert (Q : quad d (schur f) (fun i => x (S i)) = 0).
    { unfold quad. rewrite (Sum_ext _ (fun _ => 0)); [apply Sum_zero|]. intros k Hk.
      rewrite (Sum_ext _ (fun _ => 0)); [apply Sum_zero|]. intros j Hj. rewrite Z by exact Hk. ring. }
    rewrite Q, Rplus_0_r. apply Rsqr_pos_lt. apply Rmult_integral_contrapositive_currified; [|exact Hx].
    apply Rgt_not_eq, sqrt_lt_R0, Hp.
Qed.

Lemma cholf_upper d : forall f i j, (i < j)%nat -> cholf d f i j = 0.
Proof.
  induction d as [|d IH]; intros f i j H; [reflexivity|]. cbn [cholf].
  destruct i as [|i], j as [|j]; try lia; [reflexivity|]. apply IH. lia.
Qed.
Lemma cholf_diag d : forall f i, spdf d f -> (i < d)%nat -> 0 < cholf d f i i.
Proof.
  induction d as [|d IH]; intros f i H Hi; [lia|]. cbn [cholf]. destruct i as [|i].
  - apply sqrt_lt_R0, (spdf_pivot d f H).
  - apply IH; [now apply spdf_schur|lia].
Qed.
Lemma cholf_prod d : forall f i j, spdf d f -> (i < d)%nat -> (j < d)%nat ->
  Sum d (fun k => cholf d f i k * cholf d f j k) = f i j.
Proof.
  induction d as [|d IH]; intros f i j H Hi Hj; [lia|].
  pose proof (spdf_pivot d f H) as Hp. assert (Hs2 : sqrt (f O O) * sqrt (f O O) = f O O) by (apply sqrt_sqrt; lra).
  assert (Hs0 : sqrt (f O O) <> 0) by (apply Rgt_not_eq, sqrt_lt_R0, Hp).
  rewrite rsum_S. cbn [cholf]. destruct i as [|i], j as [|j].
  - rewrite (Sum_ext _ (fun _ => 0)) by (intros; ring). rewrite Sum_zero. lra.
  - rewrite (Sum_ext _ (fun _ => 0)) by (intros; ring). rewrite Sum_zero. unfold col.
    rewrite (proj1 H O (S j)) by lia. field. exact Hs0.
  - rewrite (Sum_ext _ (fun _ => 0)) by (intros; ring). rewrite Sum_zero. unfold col. field. exact Hs0.
  - rewrite IH; [unfold schur; lra|now apply spdf_schur|lia|lia].
Qed.

Lemma tab_S {A} d (f : nat -> A) : tab (S d) f = f O :: tab d (fun i => f (S i)).
Proof. unfold tab. cbn [seq map]. now rewrite <- seq_shift, map_map. Qed.

Section R.
  Variable lg : R -> R.
  #[local] Hint Extern 0 (Num R) => exact (NumR lg) : typeclass_instances.

  Lemma split_column_tab (a : nat -> R) d (g : nat -> nat -> R) n :
    split_column (tab n (fun i => a i :: tab d (g i))) = Ok (tab n a, tab n (fun i => tab d (g i))).
  Proof.
    unfold tab at 1 3 4. generalize (seq 0 n). induction l as [|i l IH]; [reflexivity|].
    cbn [map split_column]. rewrite IH. reflexivity.
  Qed.
  Lemma llt_step d f :
    llt (N:=NumR lg) (S d) (mtab (S d) f) =
      if rleb (f O O) 0 then Fail else
      let* L := llt (N:=NumR lg) d (mtab d (schur f)) in
      let* rows := zip_with (fun c r => Ok (c :: r)) (tab d (col f)) L in
      Ok ((sqrt (f O O) :: v_zero d) :: rows).
  Proof.
    unfold mtab at 1. rewrite tab_S. rewrite (tab_S d (f O)).
    rewrite (tab_ext d (fun i => tab (S d) (f (S i))) (fun i => f (S i) O :: tab d (fun j => f (S i) (S j)))) by (intros; apply tab_S).
    cbn [llt]. cbn [nleb nof NumR]. unfold dassert. destruct (rleb (f O O) 0); [reflexivity|]. cbn [negb obind].
    rewrite split_column_tab. cbn [obind fst snd]. rewrite tab_map.
    change (tab d (fun i => tab d (fun j => f (S i) (S j)))) with (mtab d (fun i j => f (S i) (S j))).
    change (tab d (fun i => (f (S i) O / nsqrt (f O O))%num)) with (tab d (col f)).
    rewrite outer_tab, m_bin_tab. cbn [obind]. reflexivity.
  Qed.
  Lemma rleb_pos x : 0 < x -> rleb x 0 = false.
  Proof. intro H. unfold rleb. destruct (Rle_dec x 0); [lra|reflexivity]. Qed.
  Lemma llt_spd d : forall f, spdf d f -> llt (N:=NumR lg) d (mtab d f) = Ok (mtab d (cholf d f)).
  Proof.
    induction d as [|d IH]; intros f H; [reflexivity|]. rewrite llt_step.
    rewrite rleb_pos by exact (spdf_pivot d f H). rewrite IH by now apply spdf_schur. cbn [obind].
    unfold mtab at 1. rewrite (zip_tab d _ _ _ (fun i => col f i :: tab d (cholf d (schur f) i))) by reflexivity.
    cbn [obind]. unfold mtab. rewrite tab_S. f_equal. f_equal.
    - rewrite tab_S. cbn [cholf]. f_equal. apply v_zero_tab.
    - apply tab_ext. intros i _. now rewrite tab_S.
  Qed.
  (** The factorisation succeeds only for positive definite matrices. *)
  Lemma llt_only_spd d : forall f L, (forall i j, (i < d)%nat -> (j < d)%nat -> f i j = f j i) ->
    llt (N:=NumR lg) d (mtab d f) = Ok L -> spdf d f.
  Proof.
    induction d as [|d IH]; intros f L Hs E.
    - split; [exact Hs|]. intros x (i & Hi & _). lia.
    - rewrite llt_step in E. unfold rleb in E. destruct (Rle_dec (f O O) 0) as [|Hp]; [discriminate|].
      destruct (llt (N:=NumR lg) d (mtab d (schur f))) as [L'| |] eqn:E'; cbn [obind] in E; try discriminate.
      apply schur_spdf; [exact Hs|lra|]. apply (IH _ L'); [|exact E'].
      intros i j Hi Hj. unfold schur. rewrite (Hs (S i) (S j)) by lia. ring.
  Qed.
  Lemma llt_outcome d : forall f, llt (N:=NumR lg) d (mtab d f) = Fail \/ exists g, llt (N:=NumR lg) d (mtab d f) = Ok (mtab d g).
  Proof.
    induction d as [|d IH]; intro f; [right; exists f; reflexivity|]. rewrite llt_step.
    destruct (rleb (f O O) 0); [now left|]. destruct (IH (schur f)) as [->|(g & ->)]; [now left|right].
    cbn [obind]. unfold mtab at 1. rewrite (zip_tab d _ _ _ (fun i => col f i :: tab d (g i))) by reflexivity.
    cbn [obind]. exists (fun i j => match i, j with O, O => sqrt (f O O) | O, S _ => 0 | S i, O => col f i | S i, S j => g i j end).
    unfold mtab. rewrite tab_S. f_equal. f_equal.
    - rewrite tab_S. f_equal. apply v_zero_tab.
    - apply tab_ext. intros i _. now rewrite tab_S.
  Qed.
  Lemma square_mtab d f : m_square (F := R) (mtab d f) = true.
  Proof.
    destruct d; [reflexivity|]. unfold mtab. rewrite tab_S. cbn [m_square length]. rewrite !tab_length. apply Nat.eqb_refl.
  Qed.

  (** Multivariate normal *)
  Lemma mvn_tab d m f z : spdf d f ->
    sample_multivariate_normal (N:=NumR lg) (tab d m) (mtab d f) (tab d z) =
    Ok (tab d (fun i => m i + Sum d (fun j => cholf d f i j * z j))).
  Proof.
    intro H. unfold sample_multivariate_normal. rewrite square_mtab. cbn [dassert obind]. replace (length (mtab d f)) with d by (unfold mtab; now rewrite tab_length). rewrite tab_length.
    rewrite Nat.eqb_refl. cbn [dassert obind]. rewrite llt_spd by exact H. cbn [obind].
    rewrite m_vec_tab. cbn [obind]. apply v_bin_tab.
  Qed.
  Lemma mvn_fails d m f z : (forall i j, (i < d)%nat -> (j < d)%nat -> f i j = f j i) -> ~ spdf d f ->
    sample_multivariate_normal (N:=NumR lg) (tab d m) (mtab d f) (tab d z) = Fail.
  Proof.
    intros Hs Hn. unfold sample_multivariate_normal. rewrite square_mtab. cbn [dassert obind]. replace (length (mtab d f)) with d by (unfold mtab; now rewrite tab_length). rewrite tab_length.
    rewrite Nat.eqb_refl. cbn [dassert obind]. destruct (llt_outcome d f) as [->|(g & E)]; [reflexivity|].
    exfalso. exact (Hn (llt_only_spd d f _ Hs E)).
  Qed.

  (** Products *)
  Lemma m_mul_tab d f g : m_mul (N:=NumR lg) d (mtab d f) (mtab d g) = Ok (mtab d (fun i j => Sum d (fun k => f i k * g k j))).
  Proof.
    unfold m_mul. rewrite m_transpose_tab. cbn [obind]. apply omap_tab. intros i Hi. rewrite m_vec_tab. f_equal.
    apply tab_ext. intros j Hj. apply Sum_ext. intros; ring.
  Qed.

  (** X X^T for X lower triangular with a positive diagonal *)
  Lemma gram_quad d X x : quad d (fun i j => Sum d (fun k => X i k * X j k)) x = Sum d (fun k => Rsqr (Sum d (fun i => x i * X i k))).
  Proof.
    unfold quad.
    rewrite (Sum_ext _ (fun i => Sum d (fun k => (x i * X i k) * Sum d (fun j => x j * X j k)))).
    - rewrite Sum_swap. apply Sum_ext. intros k _. unfold Rsqr.
      rewrite (Sum_ext _ (fun i => Sum d (fun j => x j * X j k) * (x i * X i k))) by (intros; ring). now rewrite Sum_scal.
    - intros i _. rewrite (Sum_ext _ (fun j => Sum d (fun k => (x i * X i k) * (x j * X j k)))).
      + rewrite Sum_swap. apply Sum_ext. intros k _. apply Sum_scal.
      + intros j _. rewrite (Sum_ext (fun k => x i * X i k * (x j * X j k)) (fun k => (x i * x j) * (X i k * X j k))) by (intros; ring).
        rewrite Sum_scal. ring.
  Qed.
  Lemma last_nonzero d (x : nat -> R) : (exists i, (i < d)%nat /\ x i <> 0) ->
    exists i, (i < d)%nat /\ x i <> 0 /\ forall j, (i < j)%nat -> (j < d)%nat -> x j = 0.
  Proof.
    induction d as [|d IH]; intros (i & Hi & Hx); [lia|].
    destruct (Req_dec (x d) 0) as [E|E].
    - destruct IH as (k & Hk & Hxk & Hl).
      { exists i. split; [|exact Hx]. assert (i <> d) by congruence. lia. }
      exists k. split; [lia|split; [exact Hxk|]]. intros j H1 H2. destruct (Nat.eq_dec j d) as [->|]; [exact E|apply Hl; lia].
    - exists d. split; [lia|split; [exact E|intros; lia]].
  Qed.
  Lemma gram_spd d X : (forall i j, (i < j)%nat -> (j < d)%nat -> X i j = 0) -> (forall i, (i < d)%nat -> 0 < X i i) ->
    spdf d (fun i j => Sum d (fun k => X i k * X j k)).
  Proof.
    intros Hu Hd. split.
    - intros i j _ _. apply Sum_ext. intros; ring.
    - intros x Hx. rewrite gram_quad. destruct (last_nonzero d x Hx) as (i & Hi & Hxi & Hl).
      apply Sum_pos; [intros; apply Rle_0_sqr|]. exists i. split; [exact Hi|].
      rewrite (Sum_single _ d i Hi).
      + apply Rsqr_pos_lt. apply Rmult_integral_contrapositive_currified; [exact Hxi|]. apply Rgt_not_eq, Hd, Hi.
      + intros j Hj Hne. destruct (Nat.lt_total j i) as [L|[L|L]]; [rewrite Hu by lia; ring|contradiction|rewrite Hl by lia; ring].
  Qed.

  (** Wishart *)
  Definition bartf (chi : nat -> R -> R) (norm : nat -> nat -> R) (nu : R) (i j : nat) : R :=
    if (j <? i)%nat then norm i j else if (j =? i)%nat then sqrt (chi i (nu - INR i)) else 0.
  Lemma bartlett_tab chi norm nu d : bartlett (N:=NumR lg) chi norm nu d = mtab d (bartf chi norm nu).
  Proof.
    unfold bartlett, mtab, tab. apply map_ext. intro i. apply map_ext. intro j. unfold bartf. cbn [nsqrt nsub nof NumR].
    now rewrite <- INR_IZR_INZ.
  Qed.
  Definition wish (chi : nat -> R -> R) norm nu d f (i j : nat) : R :=
    Sum d (fun k => Sum d (fun l => cholf d f i l * bartf chi norm nu l k) * Sum d (fun l => cholf d f j l * bartf chi norm nu l k)).
  Lemma wishart_tab chi norm nu d f : spdf d f ->
    sample_wishart (N:=NumR lg) chi norm nu (mtab d f) = Ok (mtab d (wish chi norm nu d f)).
  Proof.
    intro H. unfold sample_wishart. rewrite square_mtab. cbn [dassert obind].
    replace (length (mtab d f)) with d by (unfold mtab; now rewrite tab_length).
    rewrite llt_spd by exact H. cbn [obind]. rewrite bartlett_tab, m_mul_tab. cbn [obind].
    rewrite m_transpose_tab. cbn [obind]. apply m_mul_tab.
  Qed.
  Lemma wish_spd chi norm nu d f : spdf d f -> INR d - 1 < nu -> (forall i a, 0 < a -> 0 < chi i a) ->
    spdf d (wish chi norm nu d f).
  Proof.
    intros H Hnu Hc. apply gram_spd.
    - intros i j Hij Hj. rewrite (Sum_ext _ (fun _ => 0)); [apply Sum_zero|]. intros l Hl.
      destruct (Nat.lt_ge_cases i l) as [L|L]; [rewrite cholf_upper by exact L; ring|].
      unfold bartf. destruct (Nat.ltb_spec j l); [lia|]. destruct (Nat.eqb_spec j l); [lia|]. ring.
    - intros i Hi. rewrite (Sum_single _ d i Hi).
      + unfold bartf. rewrite Nat.ltb_irrefl, Nat.eqb_refl. apply Rmult_lt_0_compat; [now apply cholf_diag|].
        apply sqrt_lt_R0, Hc. apply (le_INR (S i) d) in Hi. rewrite S_INR in Hi. lra.
      + intros l Hl Hne. destruct (Nat.lt_ge_cases i l) as [L|L]; [rewrite cholf_upper by exact L; ring|].
        unfold bartf. destruct (Nat.ltb_spec i l); [lia|]. destruct (Nat.eqb_spec i l); [lia|]. ring.
  Qed.
  Definition iwish chi norm nu d f : nat -> nat -> R := invf d (wish chi norm nu d (invf d f)).
  Lemma iwishart_tab chi norm nu d f : spdf d f ->
    sample_inverse_wishart (N:=NumR lg) inv_R chi norm nu (mtab d f) = Ok (mtab d (iwish chi norm nu d f)).
  Proof.
    intro H. unfold sample_inverse_wishart. rewrite inv_tab, wishart_tab by now apply spdf_inv. cbn [obind]. now rewrite inv_tab.
  Qed.
  Lemma iwish_spd chi norm nu d f : spdf d f -> INR d - 1 < nu -> (forall i a, 0 < a -> 0 < chi i a) ->
    spdf d (iwish chi norm nu d f).
  Proof. intros H Hnu Hc. apply spdf_inv, wish_spd; [now apply spdf_inv|exact Hnu|exact Hc]. Qed.

  Lemma spdf_scale d f c : 0 < c -> spdf d f -> spdf d (fun i j => c * f i j).
  Proof.
    intros Hc [Hs P]. split.
    - intros i j Hi Hj. rewrite Hs by assumption. reflexivity.
    - intros x Hx. rewrite quad_scale. apply Rmult_lt_0_compat; [exact Hc|now apply P].
  Qed.
End R.

From Verif.spec Require Import NormalSpec.

Lemma square_length d A : square d A -> length A = d.
Proof. now intros [H _]. Qed.
Lemma spd_spdf d A : spd d A -> spdf d (entry A).
Proof. intros H. exact H. Qed.
Lemma spdf_spd d f : spdf d f -> spd d (mtab d f).
Proof. intro H. exact (spdf_ext d f (entry (mtab d f)) (fun i j Hi Hj => eq_sym (mtab_entry d f i j Hi Hj)) H). Qed.
Lemma mtab_square d f : square d (mtab d f).
Proof.
  split; [apply tab_length|]. unfold mtab, tab at 1. apply Forall_forall. intros r Hr. apply in_map_iff in Hr.
  destruct Hr as (i & <- & _). apply tab_length.
Qed.

(** The law determines the covariance matrix. *)
Lemma law_unique d m S S' (draw : list R -> outcome (list R)) :
  normal_law d m S (fun z x => draw z = Ok x) -> normal_law d m S' (fun z x => draw z = Ok x) ->
  forall i j, (i < d)%nat -> (j < d)%nat -> S i j = S' i j.
Proof.
  intros (L & HL & HD) (L' & HL' & HD').
  assert (E : forall i j, (i < d)%nat -> (j < d)%nat -> L i j = L' i j).
  { intros i j Hi Hj. set (e := tab d (fun k => if (k =? j)%nat then 1 else 0)).
    destruct (HD e (tab_length d _)) as (x & Ex & _ & Vx). destruct (HD' e (tab_length d _)) as (x' & Ex' & _ & Vx').
    rewrite Ex in Ex'. injection Ex' as <-. specialize (Vx i Hi). specialize (Vx' i Hi). rewrite Vx in Vx'. injection Vx' as Vx'.
    assert (G : forall M : nat -> nat -> R, Sum d (fun k => M i k * coord k e) = M i j).
    { intro M. rewrite (Sum_single _ d j Hj).
      - unfold e. rewrite tab_coord by exact Hj. rewrite Nat.eqb_refl. ring.
      - intros k Hk Hne. unfold e. rewrite tab_coord by exact Hk. apply Nat.eqb_neq in Hne. rewrite Hne. ring. }
    rewrite (G L), (G L') in Vx'. lra. }
  intros i j Hi Hj. rewrite <- HL, <- HL' by assumption. apply Sum_ext. intros k Hk. now rewrite !E by assumption.
Qed.
Lemma law_ext d m m' S S' draw : (forall i, (i < d)%nat -> m i = m' i) -> (forall i j, (i < d)%nat -> (j < d)%nat -> S i j = S' i j) ->
  normal_law d m S draw -> normal_law d m' S' draw.
Proof.
  intros Hm HS (L & HL & HD). exists L. split.
  - intros i j Hi Hj. now rewrite HL, HS.
  - intros z Hz. destruct (HD z Hz) as (x & Hx & Lx & V). exists x. split; [exact Hx|]. split; [exact Lx|].
    intros i Hi. rewrite V by exact Hi. now rewrite Hm.
Qed.

Section Laws.
  Variable lg : R -> R.
  #[local] Hint Extern 0 (Num R) => exact (NumR lg) : typeclass_instances.

  Lemma mvn_law_tab d m f : spdf d f ->
    normal_law d m f (fun z x => sample_multivariate_normal (N:=NumR lg) (tab d m) (mtab d f) z = Ok x).
  Proof.
    intro H. exists (cholf d f). split; [intros; now apply cholf_prod|].
    intros z Hz. exists (tab d (fun i => m i + Sum d (fun j => cholf d f i j * coord j z))). split.
    - rewrite (tab_self d z Hz) at 1. apply mvn_tab, H.
    - split; [apply tab_length|]. intros i Hi. now rewrite tab_nth.
  Qed.
  Lemma mvn_law d mu sigma : length mu = d -> square d sigma -> spd d sigma ->
    normal_law d (fun i => coord i mu) (entry sigma) (fun z x => sample_multivariate_normal (N:=NumR lg) mu sigma z = Ok x).
  Proof.
    intros Hm Hs Hp. pose proof (mvn_law_tab d (fun i => coord i mu) (entry sigma) Hp) as G.
    rewrite <- (tab_self d mu Hm), <- (square_tab d sigma Hs) in G. exact G.
  Qed.
  Lemma mvn_rejects d mu sigma z : length mu = d -> square d sigma -> length z = d ->
    (forall i j, (i < d)%nat -> (j < d)%nat -> entry sigma i j = entry sigma j i) -> ~ spd d sigma ->
    sample_multivariate_normal (N:=NumR lg) mu sigma z = Fail.
  Proof.
    intros Hm Hs Hz Hsym Hn. rewrite (tab_self d mu Hm), (square_tab d sigma Hs), (tab_self d z Hz).
    apply mvn_fails; assumption.
  Qed.

  Lemma wishart_law chi norm nu d scale : square d scale -> spd d scale -> INR d - 1 < nu -> (forall i a, 0 < a -> 0 < chi i a) ->
    exists W, sample_wishart (N:=NumR lg) chi norm nu scale = Ok W /\ square d W /\ spd d W /\
      bartlett_law d (entry scale) (fun i => chi i (nu - INR i)) norm (entry W).
  Proof.
    intros Hq Hs Hnu Hc. exists (mtab d (wish chi norm nu d (entry scale))).
    split; [pose proof (wishart_tab lg chi norm nu d (entry scale) Hs) as G; rewrite <- (square_tab d scale Hq) in G; exact G|]. split; [apply mtab_square|]. split; [now apply spdf_spd, wish_spd|].
    exists (cholf d (entry scale)), (bartf chi norm nu). repeat split.
    - now apply cholf_upper.
    - unfold bartf. destruct (Nat.ltb_spec j i); [lia|]. destruct (Nat.eqb_spec j i); [lia|reflexivity].
    - intros i j Hi Hj. now apply cholf_prod.
    - unfold bartf. rewrite Nat.ltb_irrefl, Nat.eqb_refl. apply sqrt_pos.
    - unfold bartf. rewrite Nat.ltb_irrefl, Nat.eqb_refl. apply Rsqr_sqrt. left. apply Hc.
      apply (le_INR (S i) d) in H. rewrite S_INR in H. lra.
    - intros i j Hij. unfold bartf. apply Nat.ltb_lt in Hij. now rewrite Hij.
    - intros i j Hi Hj. now rewrite mtab_entry.
  Qed.
  Lemma iwishart_law chi norm nu d psi : square d psi -> spd d psi -> INR d - 1 < nu -> (forall i a, 0 < a -> 0 < chi i a) ->
    exists W, sample_inverse_wishart (N:=NumR lg) inv_R chi norm nu psi = Ok W /\ square d W /\ spd d W /\
      bartlett_law d (entry (inv_R psi)) (fun i => chi i (nu - INR i)) norm (entry (inv_R W)).
  Proof.
    intros Hq Hs Hnu Hc.
    assert (E : inv_R psi = mtab d (invf d (entry psi))) by (pose proof (inv_tab d (entry psi)) as G; rewrite <- (square_tab d psi Hq) in G; exact G).
    assert (Si : spdf d (invf d (entry psi))) by now apply spdf_inv.
    destruct (wishart_law chi norm nu d (inv_R psi)) as (V & EV & QV & SV & BV); auto.
    { rewrite E. apply mtab_square. } { rewrite E. now apply spdf_spd. }
    exists (inv_R V). assert (E2 : inv_R V = mtab d (invf d (entry V))) by (pose proof (inv_tab d (entry V)) as G; rewrite <- (square_tab d V QV) in G; exact G).
    split; [unfold sample_inverse_wishart; now rewrite EV|]. rewrite E2. split; [apply mtab_square|].
    split; [apply spdf_spd, spdf_inv, SV|].
    destruct BV as (L & A & B1 & B2 & B3 & B4 & B5). exists L, A. repeat split; try apply B1; try apply B3; auto.
    intros i j Hi Hj. rewrite inv_tab, mtab_entry by assumption. rewrite invf_invf; [now apply B5|exact SV|exact Hi|exact Hj].
  Qed.
End Laws.

Section Sampler.
  Variable lg : R -> R.
  #[local] Hint Extern 0 (Num R) => exact (NumR lg) : typeclass_instances.
  Variables (d dl : nat) (sh : niw_shared R) (l : list (list R)) (chi : nat -> R -> R) (norm : nat -> nat -> R).
  Hypotheses (Hd : (0 < d)%nat) (Hmu : length (nw_mu sh) = d) (Hpsi : square d (nw_psi sh)) (Hk : 0 < nw_kappa sh)
    (Hs : spd d (nw_psi sh)) (Hnu : INR d - 1 < nw_nu sh) (Hl : vectors d l) (Hc : forall i a, 0 < a -> 0 < chi i a).
  Let m i := coord i (nw_mu sh).
  Let p := entry (nw_psi sh).
  Let kn := nw_kappa sh + INR (length l).
  Let nun := nw_nu sh + INR (length l).
  Let psin := ppsi (nw_kappa sh) m p (sx l) (sxx l) (INR (length l)).
  Let mun := pmu (nw_kappa sh) m (sx l) (INR (length l)).
  Definition Sg := iwish chi norm nun d psin.
  Let G := niw_stat d l.

  Lemma psin_spd : spdf d psin.
  Proof. unfold psin, p, m. apply post_spd; [exact Hk|exact Hs]. Qed.
  Lemma Sg_spd : spdf d Sg.
  Proof. apply iwish_spd; [exact psin_spd| |exact Hc]. unfold nun. pose proof (pos_INR (length l)). lra. Qed.
  Lemma kn_pos' : 0 < kn.
  Proof. unfold kn. pose proof (pos_INR (length l)). lra. Qed.
  Lemma iw_eq : sample_inverse_wishart (N:=NumR lg) inv_R chi norm nun (mtab d psin) = Ok (mtab d Sg).
  Proof. apply iwishart_tab, psin_spd. Qed.
  Lemma post_eq : niw_plus_group (N:=NumR lg) dl sh G = Ok (mk_niw_shared (tab d mun) kn (mtab d psin) nun).
  Proof. unfold G. rewrite (plus_post lg d dl sh Hd Hmu Hpsi Hk l). reflexivity. Qed.
  Definition covf (i j : nat) : R := 1 / kn * Sg i j.
  Lemma covf_spd : spdf d covf.
  Proof. apply spdf_scale; [|exact Sg_spd]. unfold Rdiv. rewrite Rmult_1_l. apply Rinv_0_lt_compat, kn_pos'. Qed.
  Lemma init_eq z : length z = d -> exists mu, niw_sampler_init (N:=NumR lg) inv_R dl chi norm z sh G = Ok (mu, mtab d covf) /\
    length mu = d /\ sample_multivariate_normal (N:=NumR lg) (tab d mun) (mtab d covf) z = Ok mu.
  Proof.
    intro Hz. unfold niw_sampler_init. rewrite post_eq. cbn [obind nw_mu nw_kappa nw_psi nw_nu].
    unfold sample_normal_inverse_wishart. rewrite iw_eq. cbn [obind].
    replace (m_map _ (mtab d Sg)) with (mtab d covf) by (symmetry; apply m_map_tab).
    pose proof (mvn_tab lg d mun covf (fun i => coord i z) covf_spd) as E. rewrite <- (tab_self d z Hz) in E. rewrite E.
    cbn [obind]. eexists. split; [reflexivity|]. split; [apply tab_length|reflexivity].
  Qed.
  Lemma sampler_laws : exists g q S, c_filled (NIW R (N:=NumR lg)) dl sh l = Ok g /\
    niw_plus_group (N:=NumR lg) dl sh g = Ok q /\
    sample_inverse_wishart (N:=NumR lg) inv_R chi norm (nw_nu q) (nw_psi q) = Ok S /\ square d S /\ spd d S /\
    nw_kappa q = nw_kappa sh + INR (length l) /\
    (** the mean *)
    normal_law d (fun i => coord i (nw_mu q)) (fun i j => entry S i j / nw_kappa q)
      (fun z mu => exists cov, niw_sampler_init (N:=NumR lg) inv_R dl chi norm z sh g = Ok (mu, cov)) /\
    (** the values *)
    forall z, length z = d -> exists s, niw_sampler_init (N:=NumR lg) inv_R dl chi norm z sh g = Ok s /\
      normal_law d (fun i => coord i (fst s)) (fun i j => entry S i j / nw_kappa q)
        (fun z' x => niw_sampler_eval (N:=NumR lg) s z' = Ok x).
  Proof.
    exists G, (mk_niw_shared (tab d mun) kn (mtab d psin) nun), (mtab d Sg).
    split; [apply niw_filled; [exact Hmu|exact Hl]|]. split; [exact post_eq|]. split; [exact iw_eq|].
    split; [apply mtab_square|]. split; [apply spdf_spd, Sg_spd|]. split; [reflexivity|]. cbn [nw_mu nw_kappa].
    assert (EC : forall i j, (i < d)%nat -> (j < d)%nat -> covf i j = entry (mtab d Sg) i j / kn).
    { intros i j Hi Hj. rewrite mtab_entry by assumption. unfold covf. field. pose proof kn_pos'. lra. }
    split.
    - apply (law_ext d mun _ covf); [intros; now rewrite tab_coord|exact EC|].
      destruct (mvn_law_tab lg d mun covf covf_spd) as (L & H1 & H2). exists L. split; [exact H1|].
      intros z Hz. destruct (H2 z Hz) as (x & Ex & Vx). exists x. split; [|exact Vx].
      destruct (init_eq z Hz) as (mu & Ei & _ & Em). rewrite Em in Ex. injection Ex as <-. eauto.
    - intros z Hz. destruct (init_eq z Hz) as (mu & Ei & Lm & _). exists (mu, mtab d covf). split; [exact Ei|].
      cbn [fst]. unfold niw_sampler_eval. cbn [fst snd].
      apply (law_ext d (fun i => coord i mu) _ (entry (mtab d covf))); [reflexivity| |].
      + intros i j Hi Hj. rewrite mtab_entry by assumption. now apply EC.
      + apply mvn_law; [exact Lm|apply mtab_square|apply spdf_spd, covf_spd].
  Qed.
End Sampler.
