(** The component models as features, in exact arithmetic. *)
From Coq Require Import Permutation Reals Lra.
From Verif.spec Require Import GroupSpec SlaveSpec SystemSpec.
From Verif.model Require Import Base Packed Num NumR VectorMath Component Slave SlaveRun BB GP BNB NICH DD Sparse DPD System.
From Verif.proof Require Import BaseProof VectorProof PackedProof LoopProof GroupProof BBProof CountsProof DDProof NICHProof
  SlaveProof SlaveInst DDSlave SlaveScore DDScore.
From stdpp Require Import gmap.
From Verif.proof Require Import MapSum DPDProof DPDScore DPDShared DPDSlave DPDSlaveRun DPDJoint FeatureProof.
Local Open Scope Z_scope.

Section Laws.
  Variables (lg : R -> R) (dl : nat).
  #[local] Hint Extern 0 (Num R) => exact (NumR lg) : typeclass_instances.

  Lemma bb_laws (sh : bb_shared R) : laws (C:=BB R) dl sh any bb_stat.
  Proof.
    split; [reflexivity|apply bb_stat_perm| |]; intros l v Hs _; [now apply bb_add_stat|now apply bb_rem_stat].
  Qed.
  Lemma bnb_laws (sh : bnb_shared R) : laws (C:=BNB R) dl sh any bnb_stat.
  Proof. split; [reflexivity|apply bnb_stat_perm| |]; intros l v Hs _; [apply bnb_add_stat|apply bnb_rem_stat]. Qed.
  Lemma gp_laws (sh : gp_shared R) : laws (C:=GP R) dl sh any gp_stat.
  Proof. split; [reflexivity|apply gp_stat_perm| |]; intros l v Hs _; [apply gp_add_stat|apply gp_rem_stat]. Qed.
  Lemma nich_laws (sh : nich_shared R) : laws (C:=NICH R) dl sh any nich_stat.
  Proof.
    split; [apply nich_init_stat|apply nich_stat_perm| |]; intros l v Hs _; [now apply nich_add_stat|now apply nich_rem_stat].
  Qed.
  Lemma dd_laws (sh : dd_shared R) : laws (C:=DD R) dl sh (dd_okv sh) (dd_stat (dd_dim sh)).
  Proof.
    split; [apply dd_init_stat|apply dd_stat_perm| |]; intros l v Hs Ho; [apply dd_add_stat|apply dd_rem_stat]; now split.
  Qed.
  Lemma dpd_laws (sh : dpd_shared R) : laws (C:=DPD R) dl sh (dpd_known sh) dpd_stat.
  Proof.
    split; [reflexivity|apply dpd_stat_perm| |]; intros l v Hs Ho; [apply dpd_add_stat|apply dpd_rem_stat]; now split.
  Qed.

  Context {W : Type}.
  Variable ok : W -> Prop.
  Notation fo f := (exists Inv pred, follows dl ok f Inv pred).
  Definition bbs (_ : nat) (sh : bb_shared R) g v : outcome R := Ok (bb_score_value sh g v).
  Definition gps (_ : nat) (sh : gp_shared R) g v : outcome R := Ok (gp_score_value sh g v).
  Definition bnbs (_ : nat) (sh : bnb_shared R) g v : outcome R := Ok (bnb_score_value sh g v).
  Definition nichs (_ : nat) (sh : nich_shared R) g v : outcome R := Ok (nich_score_value sh g v).

  Lemma fo_bb sh pr : fo (mk_feature (BB R) bb_vscorer bbs sh pr).
  Proof.
    do 2 eexists. eapply follows_coherent; [apply bb_laws|apply bb_coherent|split; exact I|reflexivity].
  Qed.
  Lemma fo_bb_small sh pr : fo (mk_feature (BB R) (small_vscorer (C:=BB R) bbs) bbs sh pr).
  Proof.
    do 2 eexists. apply (follows_small dl ok (BB R) bbs sh pr any bb_stat (fun l v => bb_score_value sh (bb_stat l) v));
      [apply bb_laws|intros; exact I|reflexivity].
  Qed.
  Lemma fo_gp sh pr : fo (mk_feature (GP R) gp_vscorer gps sh pr).
  Proof.
    do 2 eexists. eapply follows_coherent; [apply gp_laws|apply gp_coherent|split; exact I|reflexivity].
  Qed.
  Lemma fo_gp_small sh pr : fo (mk_feature (GP R) (small_vscorer (C:=GP R) gps) gps sh pr).
  Proof.
    do 2 eexists. apply (follows_small dl ok (GP R) gps sh pr any gp_stat (fun l v => gp_score_value sh (gp_stat l) v));
      [apply gp_laws|intros; exact I|reflexivity].
  Qed.
  Lemma fo_bnb sh pr : fo (mk_feature (BNB R) bnb_vscorer bnbs sh pr).
  Proof.
    do 2 eexists. eapply follows_coherent; [apply bnb_laws|apply bnb_coherent|split; exact I|].
    intros l w _ _ _. unfold bnbs. now rewrite bnb_fast_eq.
  Qed.
  Lemma fo_bnb_small sh pr : fo (mk_feature (BNB R) (small_vscorer (C:=BNB R) bnbs) bnbs sh pr).
  Proof.
    do 2 eexists. apply (follows_small dl ok (BNB R) bnbs sh pr any bnb_stat (fun l v => bnb_score_value sh (bnb_stat l) v));
      [apply bnb_laws|intros; exact I|reflexivity].
  Qed.
  Lemma fo_nich sh pr : fo (mk_feature (NICH R) nich_vscorer nichs sh pr).
  Proof.
    do 2 eexists. eapply follows_coherent; [apply nich_laws|apply nich_coherent|split; exact I|reflexivity].
  Qed.
  Lemma fo_nich_small sh pr : fo (mk_feature (NICH R) (small_vscorer (C:=NICH R) nichs) nichs sh pr).
  Proof.
    do 2 eexists. apply (follows_small dl ok (NICH R) nichs sh pr any nich_stat (fun l v => nich_score_value sh (nich_stat l) v));
      [apply nich_laws|intros; exact I|reflexivity].
  Qed.

  Lemma tally_nonneg dim l : List.Forall (fun c => 0 <= c) (tally dim l).
  Proof. unfold tally. apply List.Forall_map. apply List.Forall_forall. intros; lia. Qed.
  Lemma dd_stat_score (sh : dd_shared R) l v : List.Forall (fun a => 0 < a)%R (dd_alphas sh) -> short l -> List.Forall (dd_okv sh) l ->
    dd_okv sh v -> dd_score_value dl sh (dd_stat (dd_dim sh) l) v = Ok (dd_fast sh (dd_stat (dd_dim sh) l) v).
  Proof.
    intros Ha Hs Hl Hv. apply dd_fast_eq; [|exact Hv|exact Ha|apply tally_nonneg].
    split; [apply tally_length|]. cbn [dd_stat dd_count_sum dd_counts]. symmetry. apply zsum_tally. now split.
  Qed.
  Lemma fo_dd sh pr : List.Forall (fun a => 0 < a)%R (dd_alphas sh) -> (forall w, ok w -> dd_okv sh (pr w)) ->
    fo (mk_feature (DD R) dd_vscorer dd_score_value sh pr).
  Proof.
    intros Ha Ho. do 2 eexists. eapply follows_coherent; [apply dd_laws|apply dd_coherent|split; now apply Ho|].
    intros l w Hs Hl Hw. apply dd_stat_score; auto.
  Qed.
  Lemma fo_dd_small sh pr : List.Forall (fun a => 0 < a)%R (dd_alphas sh) -> (forall w, ok w -> dd_okv sh (pr w)) ->
    fo (mk_feature (DD R) (small_vscorer (C:=DD R) dd_score_value) dd_score_value sh pr).
  Proof.
    intros Ha Ho. do 2 eexists.
    apply (follows_small dl ok (DD R) dd_score_value sh pr (dd_okv sh) (dd_stat (dd_dim sh)) (fun l v => dd_fast sh (dd_stat (dd_dim sh) l) v));
      [apply dd_laws|exact Ho|].
    intros l w Hs Hl Hw. apply dd_stat_score; auto.
  Qed.

  Lemma fo_dpd_small sh pr : (0 < dp_alpha sh)%R -> positive_betas sh -> (forall w, ok w -> dpd_known sh (pr w)) ->
    fo (mk_feature (DPD R) (small_vscorer (C:=DPD R) dpd_score_value) dpd_score_value sh pr).
  Proof.
    intros Ha Hb Ho. do 2 eexists.
    apply (follows_small dl ok (DPD R) dpd_score_value sh pr (dpd_known sh) dpd_stat (dfast sh));
      [apply dpd_laws|exact Ho|].
    intros l w Hs Hl Hw. apply (dfast_eq lg); auto.
  Qed.

  Lemma fine_refs (sh : dpd_shared R) data v : fine (dpd_known sh) data -> tot data v < 2 ^ 31.
  Proof. intros [_ H]. rewrite tot_uses. unfold JointSpec.uses. pose proof (count_occ_bound BinInt.Z.eq_dec v (concat data)). lia. Qed.
  Lemma fine_known (sh : dpd_shared R) data : fine (dpd_known sh) data -> known_data sh data.
  Proof.
    intro H. unfold known_data. apply List.Forall_forall. intros xs Hx. destruct (fine_in _ _ _ H Hx) as [A B]. now split.
  Qed.
  Lemma fo_dpd sh pr : (0 < dp_alpha sh)%R -> positive_betas sh -> dp_betas sh !! OTHER = None -> (forall w, ok w -> dpd_known sh (pr w)) ->
    fo (mk_feature (DPD R) dpd_vscorer dpd_score_value sh pr).
  Proof.
    intros Ha Hb H0 Ho.
    exists (fun data s => let d := map (map pr) data in grp s = map dpd_stat d /\ vsinv sh d (vst s) /\ counted d (vst s)).
    exists (fun rows w => dfast sh (map pr rows) (pr w)).
    assert (Hf : forall data, fine ok data -> fine (dpd_known sh) (map (map pr) data)) by (intros; now apply (fine_map pr ok)).
    split; cbn [ft_c ft_vs ft_sh ft_val ft_score].
    - intros data s (Hg & _ & _) Hd.
      enough (X : List.Forall2 (fun rows g => forall rows', Permutation rows rows' -> c_filled (DPD R) dl sh (map pr rows') = Ok g) data (grp s)) by exact X.
      rewrite Hg, map_map. apply forall2_map. intros rows Hi rows' P.
      destruct (fine_in _ _ _ (Hf _ Hd) (in_map (map pr) _ _ Hi)) as [Hk Hl].
      pose proof (Permutation_map pr P) as P'. rewrite (dpd_filled dl sh).
      + f_equal. now apply dpd_stat_perm, Permutation_sym.
      + split; [eapply short_perm; eauto|eapply Permutation_Forall; eauto].
    - intros k t. destruct (start_data dl sh (map (map pr) (repeat [] k)) t) as (s & E & G & I & _ & Rf).
      { apply fine_known, Hf. split; [apply List.Forall_forall; intros x Hx; apply repeat_spec in Hx; subst x; constructor|].
        replace (concat (repeat [] k)) with (@nil W); [cbn; lia|]. induction k; cbn [repeat concat]; auto. }
      { intro v. rewrite (map_repeat_nil (map pr)). cbn [map]. replace (tot (repeat [] k) v) with 0; [lia|]. induction k; cbn [repeat]; [reflexivity|]. rewrite tot_cons, <- IHk. reflexivity. }
      exists s. split; [|now split]. etransitivity; [|exact E]. f_equal. f_equal. rewrite map_map, (map_repeat_nil (fun x => dpd_stat (map pr x))). reflexivity.
    - intros data s o data' (Hg & Hv & Hc) Hd Hd' Hst Hdr.
      destruct (step_data dl (HzR lg) sh (map (map pr) data) s (vop pr o) (map (map pr) data')) as (s' & E & G' & V' & _ & _ & K);
        [exact Hg|exact Hv|now apply sstep_map|now apply fine_known, Hf|now apply fine_known, Hf| |].
      { intro v. rewrite (Hc v). pose proof (fine_refs sh _ v (Hf _ Hd)). lia. }
      exists s'. split; [exact E|]. split; [exact G'|]. split; [exact V'|]. apply K; [exact Hc|].
      destruct o as [|i|i w|i w]; cbn [vop drops_empty]; auto. rewrite nth_error_map, (Hdr i eq_refl). reflexivity.
    - intros data s w accum (Hg & Hv & Hc) Hd Hw Hl.
      etransitivity; [apply (slave_score_ok dl (HzR lg) sh (map (map pr) data) s (pr w) accum Hg Hv H0)|].
      + right. now apply Ho.
      + now rewrite map_length.
      + now rewrite map_map.
    - intros rows w Hr Hk Hw.
      assert (D : drawn_from (dpd_known sh) (map pr rows)).
      { split; [now apply short_map|]. apply List.Forall_map. eapply List.Forall_impl; [|exact Hk]. exact Ho. }
      exists (dpd_stat (map pr rows)). split; [now apply dpd_filled|]. apply (dfast_eq lg); auto.
  Qed.
End Laws.
