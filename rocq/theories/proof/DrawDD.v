(** Sampler of the Dirichlet-discrete model: the law of its draws. *)
From Coq Require Import List Reals Lra Lia.
From Coquelicot Require Import Coquelicot.
From Verif.spec Require Import DrawSpec PartitionSpec RandomSpec VectorSpec.
From Verif.model Require Import Base Num NumR VectorMath Component Random DD GroupSampler.
From Verif.proof Require Import BaseProof VectorProof LoopProof LgammaProof RandomProof DDProof DDScore DirichletLaw DrawProof.
Import ListNotations.
Local Open Scope R_scope.

Lemma nth_seq_map (f : nat -> R) n i : (i < n)%nat -> nth i (map f (seq 0 n)) 0 = f i.
Proof.
  intros H. rewrite (nth_indep _ 0 (f 0%nat)) by (rewrite map_length, seq_length; exact H).
  rewrite (map_nth f). now rewrite seq_nth.
Qed.
Lemma rsum_app a b : rsum (a ++ b) = rsum a + rsum b.
Proof. induction a as [|x a IH]; cbn; [lra |]. rewrite IH. lra. Qed.
Lemma rsum_sumf f n : rsum (map f (seq 0 n)) = sumf f n.
Proof.
  induction n as [|n IH]; [reflexivity |]. rewrite seq_S, map_app, rsum_app, IH. cbn. lra.
Qed.
Lemma list_ext (a b : list R) : length a = length b -> (forall i, (i < length a)%nat -> nth i a 0 = nth i b 0) -> a = b.
Proof. intros H1 H2. eapply nth_ext; eauto. Qed.

Section S.
  Variable lg : R -> R.
  #[local] Hint Extern 0 (Num R) => exact (NumR lg) : typeclass_instances.

  Definition dd_shapes (sh : dd_shared R) (g : dd_group) : list R := map (fun i => rn (dd_alphas sh) i + cn g i) (seq 0 (dd_dim sh)).
  Lemma dd_shapes_length sh g : length (dd_shapes sh g) = dd_dim sh.
  Proof. unfold dd_shapes. now rewrite map_length, seq_length. Qed.

  Lemma dd_init_loop sh g : length (dd_counts g) = dd_dim sh ->
    vfor 0 (dd_dim sh) (fun i ps => let* a := vget (dd_alphas sh) i in let* c := vget (dd_counts g) i in
       Ok (ps ++ [nadd a (nof c)])) [] = Ok (dd_shapes sh g).
  Proof.
    intros L.
    destruct (vfor_inv (fun i (p : list R) => p = map (fun i => rn (dd_alphas sh) i + cn g i) (seq 0 i))
      (fun i ps => let* a := vget (dd_alphas sh) i in let* c := vget (dd_counts g) i in Ok (ps ++ [nadd a (nof c)])) (dd_dim sh) 0 [])
      as (p & E & P).
    - reflexivity.
    - intros i p Hi ->. rewrite vget_rn by (unfold dd_dim in Hi; lia). cbn [obind].
      destruct (vget_cn g i) as (c & -> & Hc); [lia |]. cbn [obind]. eexists. split; [reflexivity |].
      cbn [nadd nof NumR]. rewrite Hc, seq_S, map_app. reflexivity.
    - rewrite E, P. reflexivity.
  Qed.
  Lemma dd_init_ok gam sh g : length (dd_counts g) = dd_dim sh -> List.Forall (fun a => 0 < a) (dd_shapes sh g) ->
    dd_sampler_init gam sh g =
    Ok (map (fun x => x * (1 / rsum (draws_from gam 0 (dd_shapes sh g)))) (draws_from gam 0 (dd_shapes sh g))).
  Proof.
    intros L H. unfold dd_sampler_init. rewrite (dd_init_loop sh g L). cbn [obind].
    rewrite <- (dd_shapes_length sh g) at 1. now apply dirichlet_shares.
  Qed.

  (** a successful step of the urn *)
  Lemma dd_range dl (sh : dd_shared R) g v s : length (dd_counts g) = dd_dim sh -> dd_score_value dl sh g v = Ok s ->
    exists i, v = Z.of_nat i /\ (i < dd_dim sh)%nat.
  Proof.
    intros L E. unfold dd_score_value in E. destruct (dd_scorer_init_eq lg sh g L) as (ps & E2 & Lp & Hp).
    rewrite E2 in E. cbn [obind] in E. unfold dd_scorer_eval in E.
    destruct (dassert_at dl 1 _) as [[] | |]; try discriminate. cbn [obind fst snd] in E. unfold zget in E.
    destruct (Z.ltb_spec v 0) as [|Hv]; [discriminate |]. exists (Z.to_nat v). split; [lia |].
    unfold vget in E. destruct (nth_error ps (Z.to_nat v)) as [c |] eqn:En; [| discriminate].
    rewrite <- Lp. apply nth_error_Some. congruence.
  Qed.
  Lemma dd_score_urn dl sh g v s : length (dd_counts g) = dd_dim sh -> List.Forall (fun a => 0 < a) (dd_shapes sh g) ->
    dd_score_value dl sh g v = Ok s ->
    (Z.to_nat v < length (dd_shapes sh g))%nat /\ exp s = nth (Z.to_nat v) (dd_shapes sh g) 0 / rsum (dd_shapes sh g).
  Proof.
    intros L HP ES. destruct (dd_range dl sh g v s L ES) as (i & -> & Hi). rewrite Nat2Z.id, dd_shapes_length. split; [exact Hi |].
    pose proof (dd_score_value_eq lg dl sh g i L Hi) as E. rewrite E in ES. apply ok_inj in ES. subst s.
    assert (rsum (dd_shapes sh g) = sumf (fun i => rn (dd_alphas sh) i + cn g i) (dd_dim sh)) as ER by apply rsum_sumf.
    assert (nth i (dd_shapes sh g) 0 = rn (dd_alphas sh) i + cn g i) as EN by (unfold dd_shapes; now rewrite nth_seq_map).
    rewrite <- ER, <- EN. apply exp_ln. apply Rdiv_lt_0_compat.
    - apply (proj1 (List.Forall_forall _ _) HP). apply nth_In. rewrite dd_shapes_length. exact Hi.
    - apply sum_pos; [| exact HP]. intros E0. apply (f_equal (@length R)) in E0. rewrite dd_shapes_length in E0. cbn in E0. lia.
  Qed.
  Lemma dd_step_urn dl sh g v s g' : length (dd_counts g) = dd_dim sh ->
    dd_score_value dl sh g v = Ok s -> dd_add dl sh g v = Ok g' ->
    dd_shapes sh g' = bump (dd_shapes sh g) (Z.to_nat v) /\ length (dd_counts g') = dd_dim sh.
  Proof.
    intros L ES EA. destruct (dd_range dl sh g v s L ES) as (i & -> & Hi). rewrite Nat2Z.id.
    unfold dd_add, dd_bump in EA. destruct (dassert_at dl 1 _) as [[] | |]; try discriminate. cbn [obind] in EA.
    destruct (i32 (dd_count_sum g + 1)) as [t | |]; try discriminate. cbn [obind] in EA.
    assert (nth_error (dd_counts g) i = Some (nth i (dd_counts g) 0%Z)) as Ec by (apply nth_error_nth'; lia).
    rewrite (zget_nth _ _ _ Ec) in EA. cbn [obind] in EA.
    destruct (i32 (nth i (dd_counts g) 0%Z + 1)) as [c | |] eqn:E2; try discriminate. cbn [obind] in EA.
    unfold i32 in E2. destruct (_ && _)%bool in E2; [| discriminate]. apply ok_inj in E2. subst c.
    rewrite zset_ok in EA by lia. cbn [obind] in EA. apply ok_inj in EA. subst g'. split.
    - apply list_ext; [now rewrite bump_length, !dd_shapes_length |]. intros j Hj. rewrite dd_shapes_length in Hj.
      rewrite bump_nth by (rewrite dd_shapes_length; exact Hi). unfold dd_shapes. rewrite !nth_seq_map by exact Hj.
      unfold cn. cbn [dd_counts]. unfold kron. destruct (Nat.eqb_spec i j) as [<- | Ne].
      + rewrite (nth_error_nth (upd (dd_counts g) i (nth i (dd_counts g) 0%Z + 1)%Z) i 0%Z (x := (nth i (dd_counts g) 0 + 1)%Z)).
        * rewrite plus_IZR. lra.
        * apply nth_error_upd_eq. lia.
      + assert (nth j (upd (dd_counts g) i (nth i (dd_counts g) 0%Z + 1)%Z) 0%Z = nth j (dd_counts g) 0%Z) as ->; [| lra].
        apply nth_error_nth. rewrite nth_error_upd_ne by congruence. apply nth_error_nth'. lia.
    - cbn [dd_counts]. now rewrite length_upd.
  Qed.
  Lemma dd_polya dl sh vs g r : length (dd_counts g) = dd_dim sh -> List.Forall (fun a => 0 < a) (dd_shapes sh g) ->
    predicted (fun g v s => dd_score_value dl sh g v = Ok s) (fun g v g' => dd_add dl sh g v = Ok g') g vs r ->
    exists is, vs = map Z.of_nat is /\ List.Forall (fun i => (i < dd_dim sh)%nat) is /\ r = polya (dd_shapes sh g) is.
  Proof.
    intros L HP HL. exists (map Z.to_nat vs).
    assert (List.Forall (fun v => (0 <= v)%Z) vs) as Hv.
    { assert (length (dd_counts g) = dd_dim sh) as L' by exact L. revert L'. clear L HP.
      induction HL as [g | g v s E | g v s g' vs r E EA HL IH]; intros L; [constructor | |].
      - destruct (dd_range dl sh g v s L E) as (i & -> & _). repeat constructor. lia.
      - destruct (dd_range dl sh g v s L E) as (i & -> & _). constructor; [lia |]. apply IH.
        now apply (dd_step_urn dl sh g _ s g' L E EA). }
    edestruct (predicted_polya (fun g v s => dd_score_value dl sh g v = Ok s) (fun g v g' => dd_add dl sh g v = Ok g') (dd_shapes sh) Z.to_nat (fun _ => True)
      (fun g => length (dd_counts g) = dd_dim sh /\ List.Forall (fun a => 0 < a) (dd_shapes sh g))) with (3 := HL) as [H1 H2].
    - intros g0 v s0 ES [L0 P0]. now apply (dd_score_urn dl).
    - intros g0 v s0 g' ES _ EA [L0 P0]. destruct (dd_step_urn dl sh g0 v s0 g' L0 ES EA) as [E1 E2].
      split; [split; [exact E2 | rewrite E1; now apply bump_pos] | exact E1].
    - now split.
    - apply List.Forall_forall. auto.
    - split; [| split; [| exact H2]].
      + rewrite map_map. rewrite <- (map_id vs) at 1. apply map_ext_in. intros v Hi.
        rewrite List.Forall_forall in Hv. specialize (Hv v Hi). lia.
      + now rewrite dd_shapes_length in H1.
  Qed.
  Definition zshare (n : nat) (xs : list R) (v : Z) : R :=
    if ((0 <=? v) && (v <? Z.of_nat n))%Z%bool then share (Z.to_nat v) xs else 0.
  Lemma zshares n is xs : List.Forall (fun i => (i < n)%nat) is -> product (map (zshare n xs) (map Z.of_nat is)) = shares is xs.
  Proof.
    intros H. induction H as [|i is Hi _ IH]; [reflexivity |]. cbn [map]. unfold product in *. cbn [fold_right].
    rewrite IH. unfold shares. cbn [fold_right]. f_equal. unfold zshare.
    replace ((0 <=? Z.of_nat i) && (Z.of_nat i <? Z.of_nat n))%Z%bool with true by (symmetry; apply andb_true_iff; split; [apply Z.leb_le | apply Z.ltb_lt]; lia).
    now rewrite Nat2Z.id.
  Qed.
  Theorem dd_draws dl sh g : (0 < dd_dim sh)%nat -> length (dd_counts g) = dd_dim sh -> List.Forall (fun a => 0 < a) (dd_shapes sh g) ->
    draws_follow (dd_shapes sh g)
      (fun gam u v => exists s, dd_sampler_init gam sh g = Ok s /\ dd_sampler_eval u s = Ok v)
      (predicted (fun g v s => dd_score_value dl sh g v = Ok s) (fun g v g' => dd_add dl sh g v = Ok g') g).
  Proof.
    intros HD L HP. exists (zshare (dd_dim sh)). split.
    - intros gam HG v. pose proof (draws_pos gam _ 0 HG HP) as DP.
      pose proof (draws_length gam (dd_shapes sh g) 0) as DL. rewrite dd_shapes_length in DL.
      pose proof (dd_init_ok gam sh g L HP) as EI.
      set (xs := draws_from gam 0 (dd_shapes sh g)) in *. set (ps := map (fun x => x * (1 / rsum xs)) xs) in *.
      assert (xs <> []) as Hne by (intros E0; rewrite E0 in DL; cbn in DL; lia).
      assert (forall u, (exists s, dd_sampler_init gam sh g = Ok s /\ dd_sampler_eval u s = Ok v) <->
                        exists i, v = Z.of_nat i /\ sample_discrete u ps = Ok i) as EQ.
      { intros u. rewrite EI. unfold dd_sampler_eval. split.
        - intros (s & E & E2). apply ok_inj in E. subst s. destruct (sample_discrete u ps) as [i | |]; try discriminate.
          cbn in E2. apply ok_inj in E2. eauto.
        - intros (i & -> & E). exists ps. rewrite E. auto. }
      unfold zshare. destruct ((0 <=? v) && (v <? Z.of_nat (dd_dim sh)))%Z%bool eqn:Ev.
      + apply andb_true_iff in Ev as [E1 E2]. apply Z.leb_le in E1. apply Z.ltb_lt in E2.
        destruct (discrete_prob lg xs (Z.to_nat v) Hne DP) as (lo0 & H1 & H2 & H3 & H4); [lia |].
        exists lo0. split; [exact H1 |]. split; [exact H2 |]. split; [exact H3 |]. intros u Hu. rewrite EQ, <- (H4 u Hu). fold ps.
        split.
        * intros (i & -> & E). rewrite Nat2Z.id. exact E.
        * intros E. exists (Z.to_nat v). split; [lia | exact E].
      + exists 0. split; [lra |]. split; [lra |]. split; [lra |]. intros u Hu. rewrite EQ. split; [| lra].
        intros (i & -> & E). exfalso.
        destruct (normal_sum xs Hne DP) as [HS HF]. fold ps in HS, HF.
        apply (discrete_cdf lg u ps i) in E; [| intros E0; apply map_eq_nil in E0; contradiction | exact HF | exact HS | exact Hu].
        destruct E as [E _]. unfold ps in E. rewrite map_length in E. rewrite andb_false_iff, Z.leb_gt, Z.ltb_ge in Ev. lia.
    - intros vs r HL. destruct (dd_polya dl sh vs g r L HP HL) as (is & -> & His & ->).
      apply (gamma_mean_ext _ (shares is)); [intros xs; symmetry; now apply zshares |].
      apply polya_mean; [exact HP |]. now rewrite dd_shapes_length.
  Qed.
End S.
