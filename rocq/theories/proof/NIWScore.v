(** Normal-inverse-Wishart: posterior parameters and scores. *)
From Coq Require Import Permutation Reals Lra Lia.
From Verif.model Require Import Base Num NumR Component NIW LinR.
From Verif.spec Require Import GroupSpec GaussSpec NiwSpec.
From Verif.proof Require Import BaseProof GroupProof BBProof NIWProof LinProof.
Local Open Scope R_scope.

Lemma square_tab d A : square d A -> A = mtab d (entry A).
Proof.
  intros [H1 H2]. apply is_mat_tab. split; [exact H1|]. intros i Hi.
  destruct (nth_error A i) as [row|] eqn:E; [|apply nth_error_None in E; lia].
  exists row. split; [reflexivity|].
  assert (L : length row = d) by (rewrite Forall_forall in H2; apply H2; now apply nth_error_In in E).
  split; [exact L|]. intros j Hj. unfold entry. rewrite (nth_error_nth _ _ _ E). unfold coord.
  apply nth_error_nth'. lia.
Qed.

Lemma ln_quot x y : 0 < x -> 0 < y -> ln (x / y) = ln x - ln y.
Proof. intros Hx Hy. unfold Rdiv. rewrite ln_mult by (auto using Rinv_0_lt_compat). rewrite ln_Rinv by exact Hy. ring. Qed.

Lemma rsum_ext {A} (f g : A -> R) l : (forall a, In a l -> f a = g a) -> rsum (map f l) = rsum (map g l).
Proof. intro H. f_equal. now apply map_ext_in. Qed.
Lemma rsum_plus {A} (f g : A -> R) l : rsum (map (fun a => f a + g a) l) = rsum (map f l) + rsum (map g l).
Proof. induction l as [|a l IH]; cbn [map rsum]; lra. Qed.
Lemma rsum_scal {A} c (f : A -> R) l : rsum (map (fun a => c * f a) l) = c * rsum (map f l).
Proof. induction l as [|a l IH]; cbn [map rsum]; [lra|rewrite IH; lra]. Qed.

Lemma quad_update d f c u x :
  quad d (fun i j => f i j + c * (u i * u j)) x = quad d f x + c * Rsqr (rsum (map (fun i => x i * u i) (seq 0 d))).
Proof.
  unfold quad. set (t := rsum (map (fun i => x i * u i) (seq 0 d))).
  rewrite (rsum_ext _ (fun i => rsum (map (fun j => x i * f i j * x j) (seq 0 d)) + (c * t) * (x i * u i))).
  - rewrite rsum_plus, rsum_scal. fold t. unfold Rsqr. ring.
  - intros i _. rewrite (rsum_ext _ (fun j => x i * f i j * x j + (c * (x i * u i)) * (x j * u j))) by (intros; ring).
    rewrite rsum_plus, rsum_scal. fold t. ring.
Qed.

Lemma quad_ext d f g x : (forall i j, (i < d)%nat -> (j < d)%nat -> f i j = g i j) -> quad d f x = quad d g x.
Proof.
  intro H. unfold quad. apply rsum_ext. intros i Hi. apply rsum_ext. intros j Hj.
  apply in_seq in Hi, Hj. rewrite H by lia. reflexivity.
Qed.
Lemma quad_scale d f c x : quad d (fun i j => c * f i j) x = c * quad d f x.
Proof.
  unfold quad. rewrite <- rsum_scal. apply rsum_ext. intros i _. rewrite <- rsum_scal. apply rsum_ext. intros j _. ring.
Qed.

Lemma spdf_ext d f g : (forall i j, (i < d)%nat -> (j < d)%nat -> f i j = g i j) -> spdf d f -> spdf d g.
Proof.
  intros H [S P]. split.
  - intros i j Hi Hj. rewrite <- !H by assumption. now apply S.
  - intros x Hx. rewrite <- (quad_ext d f g x H). now apply P.
Qed.
Lemma spdf_update d f c u : 0 <= c -> spdf d f -> spdf d (fun i j => f i j + c * (u i * u j)).
Proof.
  intros Hc [S P]. split.
  - intros i j Hi Hj. rewrite (S i j) by assumption. ring.
  - intros x Hx. rewrite quad_update. pose proof (P x Hx).
    assert (0 <= c * Rsqr (rsum (map (fun i => x i * u i) (seq 0 d)))) by (apply Rmult_le_pos; [lra|apply Rle_0_sqr]).
    lra.
Qed.

Section Post.
  Variable lg : R -> R.
  #[local] Hint Extern 0 (Num R) => exact (NumR lg) : typeclass_instances.
  Variables (d dl : nat).
  Hypothesis Hd : (0 < d)%nat.

  Definition pmu (k : R) (m s : nat -> R) (n : R) (i : nat) : R := (k * m i + s i) / (k + n).
  Definition ppsi (k : R) (m : nat -> R) (p : nat -> nat -> R) (s : nat -> R) (ss : nat -> nat -> R) (n : R) (i j : nat) : R :=
    p i j + ss i j + k * m i * m j - (k * m i + s i) * (k * m j + s j) / (k + n).

  Lemma plus_group_tab m k p nu c s ss : 0 < k -> (0 <= c)%Z -> (c = 0%Z -> forall i, (i < d)%nat -> s i = 0) ->
    niw_plus_group (N:=NumR lg) dl (mk_niw_shared (tab d m) k (mtab d p) nu) (mk_niw c (tab d s) (mtab d ss)) =
    Ok (mk_niw_shared (tab d (pmu k m s (IZR c))) (k + IZR c) (mtab d (ppsi k m p s ss (IZR c))) (nu + IZR c)).
  Proof.
    intros Hk Hc H0. unfold niw_plus_group, niw_dim. cbn [nw_mu nw_kappa nw_psi nw_nu nw_count nw_sum_x nw_sum_xxT].
    rewrite tab_length. replace (0 <? d)%nat with true by (symmetry; apply Nat.ltb_lt; exact Hd).
    replace (dassert_at dl 3 true) with (Ok tt) by (unfold dassert_at; now destruct (3 <=? dl)). cbn [obind].
    set (xb := fun i => if (c =? 0)%Z then 0 else s i / IZR c).
    replace (if (c =? 0)%Z then v_zero d else v_map (fun s0 => (s0 / nof c)%num) (tab d s)) with (tab d xb).
    2:{ unfold xb. destruct (c =? 0)%Z; [now rewrite v_zero_tab|now rewrite v_map_tab]. }
    assert (Hxb : forall i, (i < d)%nat -> s i = IZR c * xb i).
    { intros i Hi. unfold xb. destruct (Z.eqb_spec c 0) as [E|E].
      - rewrite (H0 E i Hi). ring.
      - field. now apply not_0_IZR. }
    assert (Hn : 0 <= IZR c) by (now apply IZR_le).
    rewrite !v_map_tab, v_bin_tab. cbn [obind]. rewrite v_bin_tab. cbn [obind]. rewrite outer_tab, m_bin_tab. cbn [obind].
    rewrite outer_tab, m_bin_tab. cbn [obind]. rewrite outer_tab, m_bin_tab. cbn [obind]. rewrite m_bin_tab. cbn [obind].
    rewrite outer_tab, m_map_tab, m_bin_tab. cbn [obind nof nadd nsub nmul ndiv NumR].
    f_equal. f_equal.
    - apply tab_ext. intros i Hi. unfold pmu. rewrite (Hxb i Hi). field. lra.
    - apply mtab_ext. intros i j Hi Hj. unfold ppsi. rewrite (Hxb i Hi), (Hxb j Hj). field. lra.
  Qed.

  (** ** The posterior of a data set *)
  Variables (m : nat -> R) (k : R) (p : nat -> nat -> R) (nu : R).
  Hypothesis Hk : 0 < k.
  Notation SH := (mk_niw_shared (tab d m) k (mtab d p) nu).
  Notation len l := (INR (length l)).

  Definition post (l : list (list R)) : niw_shared R :=
    mk_niw_shared (tab d (pmu k m (sx l) (len l))) (k + len l) (mtab d (ppsi k m p (sx l) (sxx l) (len l))) (nu + len l).

  Lemma plus_group_stat l : niw_plus_group (N:=NumR lg) dl SH (niw_stat d l) = Ok (post l).
  Proof.
    unfold niw_stat. rewrite plus_group_tab; [|exact Hk|lia|].
    - rewrite <- INR_IZR_INZ. reflexivity.
    - intros E i _. destruct l; [reflexivity|discriminate E].
  Qed.

  Lemma sx_app xs ys i : sx (xs ++ ys) i = sx xs i + sx ys i.
  Proof. unfold sx. now rewrite map_app, rsum_app. Qed.
  Lemma sxx_app xs ys i j : sxx (xs ++ ys) i j = sxx xs i j + sxx ys i j.
  Proof. unfold sxx. now rewrite map_app, rsum_app. Qed.

  Lemma kn_pos (l : list (list R)) : 0 < k + len l.
  Proof. pose proof (pos_INR (length l)). lra. Qed.

  Lemma post_nil_psi i j : ppsi k m p (sx []) (sxx []) (len (@nil (list R))) i j = p i j.
  Proof. unfold ppsi, sx, sxx. cbn. field. lra. Qed.

  (** one more datum *)
  Definition dev (l : list (list R)) (v : list R) (i : nat) : R := coord i v - pmu k m (sx l) (len l) i.

  Lemma ppsi_cons v l i j :
    ppsi k m p (sx (v :: l)) (sxx (v :: l)) (len (v :: l)) i j =
    ppsi k m p (sx l) (sxx l) (len l) i j + (k + len l) / (k + len l + 1) * (dev l v i * dev l v j).
  Proof.
    unfold dev, ppsi, pmu, sx, sxx. cbn [map rsum length]. rewrite S_INR.
    pose proof (kn_pos l). field. lra.
  Qed.

  Hypothesis Hspd : spdf d p.
  Lemma post_spd l : spdf d (ppsi k m p (sx l) (sxx l) (len l)).
  Proof.
    induction l as [|v l IH].
    - eapply spdf_ext; [|exact Hspd]. intros i j _ _. symmetry. apply post_nil_psi.
    - eapply spdf_ext; [intros i j _ _; symmetry; apply ppsi_cons|].
      apply spdf_update; [|exact IH]. pose proof (kn_pos l). apply Rlt_le, Rdiv_lt_0_compat; lra.
  Qed.

  (** ** Scores *)
  Lemma fold_rsum (h : nat -> R) l : forall t, fold_left (fun t j => t + h j) l t = t + rsum (map h l).
  Proof. induction l as [|a l IH]; intro t; cbn [fold_left map rsum]; [lra|]. rewrite IH. lra. Qed.

  Lemma rsum_seq_S (h : nat -> R) s n : rsum (map h (seq s (S n))) = rsum (map h (seq s n)) + h (s + n)%nat.
  Proof. rewrite seq_S, map_app, rsum_app. cbn. lra. Qed.

  Definition lmg (a : R) : R := rsum (map (fun j => lg (a + 1 / 2 * IZR (1 - Z.of_nat j))) (seq 1 d)).
  Lemma lmg_step a : lmg (a + 1 / 2) - lmg a = lg (a + 1 / 2) - lg (a + 1 / 2 - INR d / 2).
  Proof.
    unfold lmg. clear Hd Hspd. induction d as [|e IH].
    - cbn. replace (a + 1 / 2 - 0 / 2) with (a + 1 / 2) by field. lra.
    - rewrite !rsum_seq_S. cbn [Nat.add].
      replace (a + 1 / 2 + 1 / 2 * IZR (1 - Z.of_nat (S e))) with (a + 1 / 2 - INR e / 2).
      2:{ rewrite minus_IZR, <- INR_IZR_INZ, S_INR. field. }
      replace (a + 1 / 2 * IZR (1 - Z.of_nat (S e))) with (a + 1 / 2 - INR (S e) / 2).
      2:{ rewrite minus_IZR, <- INR_IZR_INZ. field. }
      lra.
  Qed.

  Notation logpi := (11447298858494002 / 10000000000000000).
  Definition lmg_const : R := 1 / 4 * IZR (u32 (Z.of_nat d * (Z.of_nat d - 1))) * logpi.
  Lemma lmultigamma_eq a : lmultigamma (N:=NumR lg) dl d a = Ok (lmg_const + lmg a).
  Proof.
    unfold lmultigamma. replace (0 <? d)%nat with true by (symmetry; apply Nat.ltb_lt; exact Hd).
    replace (dassert_at dl 1 true) with (Ok tt) by (unfold dassert_at; now destruct (1 <=? dl)). cbn [obind].
    f_equal. unfold lmg_const, lmg, log_pi_niw, nhalf. cbn [nadd nmul nlit nof nlgamma NumR].
    rewrite (fold_rsum (fun j => lg (a + 1 / 2 * IZR (1 - Z.of_nat j)))). rewrite Rplus_0_l. reflexivity.
  Qed.

  Lemma v_dot_tab f g : v_dot (N:=NumR lg) (tab d f) (tab d g) = Ok (rsum (map (fun i => f i * g i) (seq 0 d))).
  Proof.
    unfold v_dot. rewrite v_bin_tab. cbn [obind]. f_equal. cbn [nadd nof nmul NumR].
    assert (G : forall l t, fold_left Rplus l t = t + rsum l).
    { induction l as [|a l IH]; intro t; cbn [fold_left rsum]; [lra|]. rewrite IH. lra. }
    rewrite G. unfold tab. lra.
  Qed.
  Lemma m_vec_tab f x : m_vec (N:=NumR lg) (mtab d f) (tab d x) =
    Ok (tab d (fun i => rsum (map (fun j => f i j * x j) (seq 0 d)))).
  Proof.
    unfold mtab. set (h := fun i => rsum (map (fun j => f i j * x j) (seq 0 d))).
    change (tab d h) with (map h (seq 0 d)). change (tab d (fun i => tab d (f i))) with (map (fun i => tab d (f i)) (seq 0 d)).
    generalize (seq 0 d). intro l.
    induction l as [|i l IH]; cbn [map m_vec]; [reflexivity|].
    rewrite v_dot_tab. cbn [obind]. rewrite IH. reflexivity.
  Qed.
  Lemma quad_dot f x : rsum (map (fun i => x i * rsum (map (fun j => f i j * x j) (seq 0 d))) (seq 0 d)) = quad d f x.
  Proof.
    unfold quad. apply rsum_ext. intros i _. rewrite <- rsum_scal. apply rsum_ext. intros j _. ring.
  Qed.

  Notation score_value := (niw_score_value (N:=NumR lg) det_R inv_R dl).
  Notation score_data := (niw_score_data (N:=NumR lg) det_R dl).

  (** score_data of the group holding l *)
  Definition sd_of (l : list (list R)) : R :=
    lmg ((nu + len l) / 2) - lmg (nu / 2) + nu / 2 * ln (det_R (mtab d p))
    - INR (length l * d) / 2 * logpi
    - (nu + len l) / 2 * ln (det_R (mtab d (ppsi k m p (sx l) (sxx l) (len l))))
    + INR d / 2 * ln (k / (k + len l)).

  Lemma score_data_eq l : few_vectors d l -> score_data SH (niw_stat d l) = Ok (sd_of l).
  Proof.
    intros [_ H]. unfold niw_score_data. rewrite plus_group_stat. cbn [obind].
    unfold niw_dim at 1 2. cbn [nw_mu]. rewrite tab_length, !lmultigamma_eq. cbn [obind]. f_equal.
    unfold niw_dim. cbn [nw_mu post nw_nu nw_psi nw_kappa nw_count niw_stat]. rewrite tab_length.
    unfold log_pi_niw, nhalf. cbn [nadd nsub nmul ndiv nlit nof nlog NumR].
    rewrite u32_small by lia. rewrite <- Nat2Z.inj_mul, <- !INR_IZR_INZ. unfold sd_of.
    replace ((nu + len l) * (1 / 2)) with ((nu + len l) / 2) by field.
    replace (nu * (1 / 2)) with (nu / 2) by field. field.
  Qed.

  Hypothesis Hnu : INR d - 1 < nu.

  Lemma score_step l v : length v = d ->
    score_value SH (niw_stat d l) v = Ok (sd_of (v :: l) - sd_of l).
  Proof.
    intros Hv. unfold niw_score_value, niw_scorer_init. rewrite plus_group_stat. cbn [obind].
    unfold niw_scorer_eval, niw_dim, score_mv_student_t. cbn [post nw_mu nw_kappa nw_psi nw_nu]. rewrite tab_length, Hv, m_map_tab.
    set (P := ppsi k m p (sx l) (sxx l) (len l)). set (K := k + len l).
    rewrite <- !INR_IZR_INZ. cbn [nadd nsub nmul ndiv nlit nof nlog nlgamma nneg NumR]. rewrite <- ?INR_IZR_INZ.
    set (dof := nu + len l - INR d + 1).
    assert (HK : 0 < K) by apply kn_pos.
    assert (Hdof : 0 < dof) by (unfold dof; pose proof (pos_INR (length l)); lra).
    set (c := (K + 1) / (K * dof)).
    assert (Hc : 0 < c) by (apply Rdiv_lt_0_compat; [lra|apply Rmult_lt_0_compat; lra]).
    replace (mtab d (fun i j => P i j * (K + 1) / (K * dof))) with (mtab d (fun i j => c * P i j)).
    2:{ apply mtab_ext. intros i j _ _. unfold c. field. lra. }
    pose proof (post_spd l) as SP. fold P in SP.
    rewrite inv_tab. rewrite (tab_self d v Hv) at 1. rewrite v_bin_tab. cbn [obind nsub NumR].
    change (tab d (fun i => coord i v - pmu k m (sx l) (len l) i)) with (tab d (dev l v)).
    rewrite m_vec_tab. cbn [obind]. rewrite v_dot_tab. cbn [obind]. rewrite quad_dot.
    rewrite (quad_ext d (invf d (fun i j => c * P i j)) (fun i j => / c * invf d P i j)).
    2:{ intros i j Hi Hj. apply (invf_scale SP); auto. lra. }
    rewrite quad_scale. set (q := quad d (invf d P) (dev l v)).
    rewrite det_scale.
    f_equal. unfold log_pi_niw, nhalf. cbn [nadd nsub nmul ndiv nlit nof nlog nlgamma nneg NumR].
    (* the determinant of the next posterior *)
    set (D := det_R (mtab d P)). assert (HD : 0 < D) by (now apply det_spd).
    set (h := K / (K + 1)). 
    assert (E : det_R (mtab d (ppsi k m p (sx (v :: l)) (sxx (v :: l)) (len (v :: l)))) = D * (1 + h * q)).
    { rewrite (mtab_ext d _ (fun i j => P i j + h * (dev l v i * dev l v j))) by (intros; apply ppsi_cons).
      now apply det_update. }
    assert (HD' : 0 < D * (1 + h * q)) by (rewrite <- E; apply det_spd, post_spd).
    assert (Hq : 0 < 1 + h * q).
    { apply (Rmult_lt_reg_l D); [exact HD|]. lra. }
    unfold sd_of. rewrite E. fold P D. rewrite (ln_mult D (1 + h * q)) by assumption.
    cbn [length]. rewrite !S_INR. cbn [Nat.mul]. rewrite plus_INR.
    replace (1 + 1 / dof * (/ c * q)) with (1 + h * q) by (unfold c, h; field; lra).
    rewrite ln_mult by (try apply pow_lt; assumption).
    assert (LP : forall x n, 0 < x -> ln (x ^ n) = INR n * ln x).
    { intros x n Hx. induction n as [|n IH]; [cbn; rewrite ln_1; lra|].
      cbn [pow]. rewrite ln_mult by (try apply pow_lt; assumption). rewrite IH, S_INR. lra. }
    rewrite LP by exact Hc.
    assert (Lc : ln c = ln (K + 1) - ln K - ln dof).
    { unfold c. rewrite ln_quot by (try apply Rmult_lt_0_compat; lra). rewrite ln_mult by lra. lra. }
    assert (L1 : ln (k / (k + (len l + 1))) = ln k - ln (K + 1)).
    { rewrite ln_quot by (unfold K in *; lra). unfold K. now replace (k + (len l + 1)) with (k + len l + 1) by lra. }
    assert (L2 : ln (k / (k + len l)) = ln k - ln K) by (rewrite ln_quot by (unfold K in *; lra); reflexivity).
    rewrite Lc, L1, L2.
    pose proof (lmg_step ((nu + len l) / 2)) as T.
    replace ((nu + len l) / 2 + 1 / 2) with ((nu + (len l + 1)) / 2) in T by field.
    replace (dof / 2 + INR d / 2) with ((nu + (len l + 1)) / 2) by (unfold dof; field).
    replace ((nu + (len l + 1)) / 2 - INR d / 2) with (dof / 2) in T by (unfold dof; field).
    replace (dof + INR d) with (nu + len l + 1) by (unfold dof; ring).
    assert (T' : lmg ((nu + (len l + 1)) / 2) = lmg ((nu + len l) / 2) + lg ((nu + (len l + 1)) / 2) - lg (dof / 2)) by lra.
    rewrite T'. field.
  Qed.
End Post.

(** ** Statements on arbitrary well-formed parameters *)
Lemma shared_tab d (sh : niw_shared R) : length (nw_mu sh) = d -> square d (nw_psi sh) ->
  sh = mk_niw_shared (tab d (fun i => coord i (nw_mu sh))) (nw_kappa sh) (mtab d (entry (nw_psi sh))) (nw_nu sh).
Proof.
  intros H1 H2. rewrite <- (tab_self d _ H1), <- (square_tab d _ H2). now destruct sh.
Qed.

Lemma few_tail d v l : few_vectors d (v :: l) -> few_vectors d l.
Proof. intros [H1 H2]. split; [eapply vectors_tail; eauto|]. cbn [length] in H2. lia. Qed.
Lemma few_perm d l l' : Permutation l l' -> few_vectors d l -> few_vectors d l'.
Proof. intros P [H1 H2]. split; [eapply vectors_perm; eauto|]. now rewrite <- (Permutation_length P). Qed.

Section Final.
  Variables (lg : R -> R) (d dl : nat) (sh : niw_shared R).
  Hypotheses (Hd : (0 < d)%nat) (Hmu : length (nw_mu sh) = d) (Hpsi : square d (nw_psi sh)) (Hk : 0 < nw_kappa sh).
  Notation C := (NIW R (N:=NumR lg)).
  Let m := fun i => coord i (nw_mu sh).
  Let p := entry (nw_psi sh).

  Lemma plus_post l : niw_plus_group (N:=NumR lg) dl sh (niw_stat d l) = Ok (post d m (nw_kappa sh) p (nw_nu sh) l).
  Proof. rewrite (shared_tab d sh Hmu Hpsi) at 1. now apply plus_group_stat. Qed.

  Lemma niw_compose xs ys : vectors d (xs ++ ys) ->
    exists gx gy gxy px q, c_filled C dl sh xs = Ok gx /\ c_filled C dl sh ys = Ok gy /\ c_filled C dl sh (xs ++ ys) = Ok gxy /\
      niw_plus_group (N:=NumR lg) dl sh gx = Ok px /\ niw_plus_group (N:=NumR lg) dl px gy = Ok q /\
      niw_plus_group (N:=NumR lg) dl sh gxy = Ok q.
  Proof.
    intro H.
    assert (Hy : vectors d ys).
    { clear -H. induction xs as [|x xs IH]; [exact H|]. apply IH. eapply vectors_tail; eauto. }
    assert (Hx : vectors d xs).
    { apply (vectors_perm d _ (ys ++ xs)) in H; [|apply Permutation_app_comm].
      clear -H. induction ys as [|x ys IH]; [exact H|]. apply IH. eapply vectors_tail; eauto. }
    do 5 eexists. split; [apply niw_filled; [exact Hmu|assumption]|]. split; [apply niw_filled; [exact Hmu|assumption]|]. split; [apply niw_filled; [exact Hmu|assumption]|].
    split; [apply plus_post|]. split; [|apply plus_post].
    unfold post at 1. pose proof (kn_pos _ Hk xs) as K1. rewrite plus_group_stat by assumption.
    f_equal. unfold post. rewrite app_length, plus_INR. pose proof (pos_INR (length ys)) as P. f_equal.
    - apply tab_ext. intros i _. unfold pmu. rewrite sx_app. field. lra.
    - lra.
    - apply mtab_ext. intros i j _ _. unfold ppsi, pmu. rewrite !sx_app, sxx_app. field. lra.
    - lra.
  Qed.

  Hypothesis Hspd : spd d (nw_psi sh).

  Lemma niw_post_spd l : vectors d l -> exists g q, c_filled C dl sh l = Ok g /\ niw_plus_group (N:=NumR lg) dl sh g = Ok q /\
    square d (nw_psi q) /\ spd d (nw_psi q) /\ 0 < det_R (nw_psi q) /\
    nw_kappa q = nw_kappa sh + INR (length l) /\ nw_nu q = nw_nu sh + INR (length l).
  Proof.
    intro Hl. do 2 eexists. split; [apply niw_filled; [exact Hmu|assumption]|]. split; [apply plus_post|].
    cbn [post nw_psi nw_kappa nw_nu].
    assert (S : spdf d (ppsi (nw_kappa sh) m p (sx l) (sxx l) (INR (length l)))) by (apply post_spd; [exact Hk|exact Hspd]).
    split; [|split; [|split; [now apply det_spd|split; reflexivity]]].
    - split; [apply tab_length|]. unfold mtab, tab at 1. apply Forall_forall. intros r Hr. apply in_map_iff in Hr.
      destruct Hr as (i & <- & _). apply tab_length.
    - destruct S as [S1 S2]. split.
      + intros i j Hi Hj. rewrite !mtab_entry by assumption. now apply S1.
      + intros x Hx. rewrite (quad_ext d _ (ppsi (nw_kappa sh) m p (sx l) (sxx l) (INR (length l)))); [now apply S2|].
        intros i j Hi Hj. now apply mtab_entry.
  Qed.

  Hypothesis Hnu : INR d - 1 < nw_nu sh.

  Lemma niw_sd_eq l : few_vectors d l ->
    niw_score_data (N:=NumR lg) det_R dl sh (niw_stat d l) = Ok (sd_of lg d m (nw_kappa sh) p (nw_nu sh) l).
  Proof. intro H. rewrite (shared_tab d sh Hmu Hpsi) at 1. now apply score_data_eq. Qed.

  Lemma niw_step l v : length v = d -> niw_score_value (N:=NumR lg) det_R inv_R dl sh (niw_stat d l) v =
    Ok (sd_of lg d m (nw_kappa sh) p (nw_nu sh) (v :: l) - sd_of lg d m (nw_kappa sh) p (nw_nu sh) l).
  Proof. intro H. rewrite (shared_tab d sh Hmu Hpsi) at 1. now apply score_step. Qed.

  Lemma niw_chain_gen l : forall k, few_vectors d (l ++ k) ->
    c_chain C dl sh 0 Rplus (niw_score_value (N:=NumR lg) det_R inv_R dl) (niw_stat d k) l =
    Ok (sd_of lg d m (nw_kappa sh) p (nw_nu sh) (l ++ k) - sd_of lg d m (nw_kappa sh) p (nw_nu sh) k).
  Proof.
    induction l as [|v l IH]; intros k F.
    - cbn. f_equal. lra.
    - assert (P : Permutation (v :: l ++ k) (l ++ v :: k)) by apply Permutation_middle.
      assert (F' : few_vectors d (l ++ v :: k)) by (apply (few_perm d _ _ P), F).
      assert (Fk : vectors d (v :: k)).
      { clear -F'. induction l as [|x l IH]; [apply F'|]. apply IH. eapply few_tail, F'. }
      cbn [c_chain]. rewrite niw_step by (destruct Fk as [_ Fk]; now apply Forall_inv in Fk).
      cbn [obind]. rewrite niw_add_stat by assumption. cbn [obind]. rewrite IH by exact F'. cbn [obind].
      f_equal.
      assert (E : sd_of lg d m (nw_kappa sh) p (nw_nu sh) (l ++ v :: k) = sd_of lg d m (nw_kappa sh) p (nw_nu sh) (v :: l ++ k)).
      { assert (X : Ok (sd_of lg d m (nw_kappa sh) p (nw_nu sh) (l ++ v :: k)) = Ok (sd_of lg d m (nw_kappa sh) p (nw_nu sh) (v :: l ++ k))).
        { rewrite <- !niw_sd_eq by assumption. now rewrite (niw_stat_perm d _ _ P). }
        now injection X. }
      fold m p. rewrite E. cbn [app]. lra.
  Qed.

  Lemma sd_nil : sd_of lg d m (nw_kappa sh) p (nw_nu sh) [] = 0.
  Proof.
    unfold sd_of. cbn [length Nat.mul INR]. rewrite !Rplus_0_r.
    rewrite (mtab_ext d (ppsi (nw_kappa sh) m p (sx []) (sxx []) 0) p) by (intros i j _ _; apply (post_nil_psi m _ p); exact Hk).
    replace (nw_kappa sh / nw_kappa sh) with 1 by (field; lra). rewrite ln_1. lra.
  Qed.

  Lemma niw_chain l : few_vectors d l ->
    (exists g s, c_filled C dl sh l = Ok g /\ niw_score_data (N:=NumR lg) det_R dl sh g = Ok s /\
      c_chain C dl sh 0 Rplus (niw_score_value (N:=NumR lg) det_R inv_R dl) (c_init C sh) l = Ok s) /\
    niw_score_data (N:=NumR lg) det_R dl sh (c_init C sh) = Ok 0.
  Proof.
    intro H. rewrite (niw_init_stat lg d sh Hmu). split.
    - exists (niw_stat d l), (sd_of lg d m (nw_kappa sh) p (nw_nu sh) l).
      split; [apply niw_filled; [exact Hmu|apply H]|]. split; [now apply niw_sd_eq|].
      rewrite niw_chain_gen by (now rewrite app_nil_r). rewrite app_nil_r, sd_nil. f_equal. lra.
    - rewrite niw_sd_eq; [now rewrite sd_nil|]. split; [exact (vectors_nil d sh Hmu)|cbn; lia].
  Qed.
End Final.
