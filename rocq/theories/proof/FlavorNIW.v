(** Normal-inverse-Wishart: the C++ group and scores against the Python ones. *)
From Coq Require Import Reals Lra Lia.
From Verif.model Require Import Base Num NumR Component HistoryRun NIW DbgNIW.
From Verif.spec Require Import FlavorSpec LgammaSpec.
From Verif.proof Require Import BaseProof FlavorProof.
Local Open Scope R_scope.

Section S.
  Variable lg : R -> R.
  #[local] Hint Extern 0 (Num R) => exact (NumR lg) : typeclass_instances.

  Ltac da H := repeat (match type of H with obind (dassert_at ?a ?b ?c) _ = Ok _ =>
    destruct (dassert_at a b c); try discriminate H; cbn [obind] in H end).

  Lemma niw_sim : forall dl (sh : niw_shared R) l g, hrun (NIW R) dl sh l = Ok g -> hrun (PyNIW R) dl sh l = Ok g.
  Proof.
    intros dl sh l g H.
    destruct (sim_of (NIW R (N:=NumR lg)) (PyNIW R (N:=NumR lg)) dl dl sh sh (fun _ => True) eq False) with (l := l) (g := g)
      as [(p & E & <-)|[[] _]]; try exact E; try exact H.
    - reflexivity.
    - intros g0 p v _ <- g1 E. left. exists g1. split; [|reflexivity]. cbn in E |- *. unfold niw_add in E. da E. i32s.
      subst w. exact E.
    - intros g0 p v n _ <- g1 E. left. exists g1. split; [|reflexivity]. cbn in E |- *. unfold niw_rep in E. da E. i32s.
      subst w. exact E.
    - intros g0 p v _ <- g1 E. left. exists g1. split; [|reflexivity]. cbn in E |- *. unfold niw_rem in E. da E. i32s.
      subst w. exact E.
    - intros g0 p g' p' <- <- g1 E. left. exists g1. split; [|reflexivity]. cbn in E |- *. unfold niw_merge in E. i32s.
      subst w. exact E.
    - now apply all_values_True.
  Qed.

  Lemma outer_scale : forall n (x y : list R),
    outer (v_map (fun b => (n * b)%num) x) y = m_map (fun e => (n * e)%num) (outer x y).
  Proof.
    intros n x y. unfold outer, v_map, m_map. rewrite !map_map. apply map_ext. intro a. rewrite map_map.
    apply map_ext. intro b. cbn. lra.
  Qed.
  Lemma niw_post : forall dl (sh : niw_shared R) g post,
    niw_plus_group dl sh g = Ok post -> py_niw_plus_group sh g = Ok post.
  Proof.
    intros dl sh g post H. unfold niw_plus_group, py_niw_plus_group in *. da H.
    destruct (nw_count g =? 0)%Z; cbn [negb]; rewrite outer_scale in H; exact H.
  Qed.

  Lemma v_dot_comm : forall x y : list R, v_dot x y = v_dot y x.
  Proof.
    intros x y. unfold v_dot. assert (E : v_bin nmul x y = v_bin nmul y x); [|now rewrite E].
    unfold v_bin. revert y. induction x as [|a x IH]; intros [|b y]; cbn; try reflexivity.
    rewrite IH. now rewrite Rmult_comm.
  Qed.
  Lemma rows_m_vec : forall A (z : list R),
    (fix rows (A : list (list R)) : outcome (list R) :=
      match A with [] => Ok [] | r :: A' => let* c := v_dot z r in let* t := rows A' in Ok (c :: t) end) A = m_vec A z.
  Proof. induction A as [|r A IH]; intro z; cbn [m_vec]; [reflexivity|]. rewrite IH. now rewrite v_dot_comm. Qed.
  Lemma v_bin_len : forall f (x y z : list R), v_bin f x y = Ok z -> length x = length y.
  Proof.
    intros f x. unfold v_bin. induction x as [|a x IH]; intros [|b y] z H; cbn in H; try discriminate; [reflexivity|].
    destruct (zip_with _ x y) as [r| |] eqn:E; try discriminate. cbn. f_equal. exact (IH y r E).
  Qed.

  Variables (det : list (list R) -> R) (inv : list (list R) -> list (list R)).

  (** How far the literal for log pi is from log pi. *)
  Definition niw_gap : R := ln PI - 11447298858494002 / 10000000000000000.

  Lemma fold_lift : forall (f g : nat -> R) l s, (forall j, f j = g j) ->
    fold_left (fun t j => t + f j) l s = fold_left Rplus (map g l) s.
  Proof. intros f g l s E. revert s. induction l as [|j l IH]; intro s; cbn; [reflexivity|]. now rewrite E, IH. Qed.

  Lemma niw_sd : forall dl (sh : niw_shared R) g s,
    (0 <= nw_count g * Z.of_nat (niw_dim sh) < 4294967296)%Z ->
    niw_score_data det dl sh g = Ok s ->
    exists t, py_niw_score_data det PI sh g = Ok t /\ s = t + IZR (nw_count g) * INR (niw_dim sh) / 2 * niw_gap.
  Proof.
    intros dl sh g s Hw H. unfold niw_score_data in H.
    destruct (niw_plus_group dl sh g) as [post| |] eqn:E; try discriminate. cbn [obind] in H.
    unfold lmultigamma in H. destruct (dassert_at dl 1 _); try discriminate. cbn [obind] in H. cbn zeta in H.
    unfold py_niw_score_data. rewrite (niw_post _ _ _ _ E). cbn [obind].
    set (D := niw_dim sh) in *. rewrite (u32_id (nw_count g * Z.of_nat D)) in H by exact Hw.
    injection H as <-. eexists. split; [reflexivity|].
    unfold py_multigammaln, nhalf, log_pi_niw, niw_gap. cbn [nlit nof nadd nsub nmul ndiv nlog nlgamma NumR].
    set (Q := IZR (u32 (Z.of_nat D * (Z.of_nat D - 1)))).
    set (W := IZR (Z.of_nat D * (Z.of_nat D - 1))).
    rewrite (fold_lift (fun j => lg (nw_nu post * (1 / 2) + 1 / 2 * IZR (1 - Z.of_nat j)))
                       (fun j => lg (nw_nu post / 2 + IZR (1 - Z.of_nat j) / 2))) by (intro; f_equal; lra).
    rewrite (fold_lift (fun j => lg (nw_nu sh * (1 / 2) + 1 / 2 * IZR (1 - Z.of_nat j)))
                       (fun j => lg (nw_nu sh / 2 + IZR (1 - Z.of_nat j) / 2))) by (intro; f_equal; lra).
    set (A := fold_left Rplus (map (fun j => lg (nw_nu post / 2 + _ / 2)) _) _).
    set (B := fold_left Rplus (map (fun j => lg (nw_nu sh / 2 + _ / 2)) _) _).
    rewrite mult_IZR, <- INR_IZR_INZ.
    lra.
  Qed.
  Lemma niw_sv : forall dl (sh : niw_shared R) g v s post,
    niw_plus_group dl sh g = Ok post -> 0 < nw_nu post - INR (niw_dim sh) + 1 ->
    niw_score_value det inv dl sh g v = Ok s ->
    exists t, py_niw_score_value det inv PI sh g v = Ok t /\ s = t + INR (length v) / 2 * niw_gap.
  Proof.
    intros dl sh g v s post E Hn H. unfold niw_score_value, niw_scorer_init in H. rewrite E in H. cbn [obind] in H.
    unfold py_niw_score_value. rewrite (niw_post _ _ _ _ E). cbn [obind].
    unfold niw_scorer_eval in H. cbn [nlit nof nadd nsub nmul ndiv nlog nlgamma NumR] in *.
    rewrite <- INR_IZR_INZ in *. replace (1 / 1) with 1 in * by lra.
    set (nu := nw_nu post - INR (niw_dim sh) + 1) in *.
    set (sigma := m_map _ _) in *.
    unfold score_mv_student_t in H. unfold py_mv_student_t.
    cbn [nlit nof nadd nsub nmul ndiv nlog nlgamma nneg NumR] in *.
    destruct (v_bin Rminus v (nw_mu post)) as [z| |] eqn:Ez; try discriminate. cbn [obind] in *.
    match goal with |- exists t, obind ?x _ = _ /\ _ => replace x with (m_vec (inv sigma) z) by (symmetry; exact (rows_m_vec (inv sigma) z)) end.
    destruct (m_vec (inv sigma) z) as [w| |]; try discriminate. cbn [obind] in *.
    rewrite v_dot_comm in H. destruct (v_dot w z) as [q| |]; try discriminate. cbn [obind] in *.
    injection H as <-. eexists. split; [reflexivity|].
    apply v_bin_len in Ez. rewrite <- Ez. rewrite <- INR_IZR_INZ.
    unfold nhalf, log_pi_niw, niw_gap. cbn [nlit NumR].
    assert (HP := PI_RGT_0). rewrite ln_mult by (try assumption; lra).
    replace (nu / 2 + INR (length v) / 2) with (1 / 2 * (nu + INR (length v))) by lra.
    replace (nu / 2) with (1 / 2 * nu) by lra.
    replace (1 + 1 / nu * q) with (1 + q / nu) by (field; lra).
    set (L := ln (1 + q / nu)). lra.
  Qed.
End S.
