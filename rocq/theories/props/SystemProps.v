(** C14, C61: a clustering driver, one mixture per feature and an id tracker, driven together. *)
From Coq Require Import Permutation Reals Lra.
From Verif.spec Require Import DriverSpec TrackerSpec GroupSpec SlaveSpec PartitionSpec SystemSpec.
From Verif.model Require Import Base Packed Num NumR NumTerm Driver DriverRun PitmanYor PitmanYorRun IdTracker VectorMath Component Slave SlaveRun
  BB GP BNB NICH DD Sparse DPD System.
From Verif.proof Require Import BaseProof PackedProof LoopProof GroupProof BBProof CountsProof DDProof NICHProof SlaveProof SlaveInst DriverProof PitmanYorProof PitmanYorR TrackerProof.
From stdpp Require Import gmap.
From Verif.proof Require Import MapSum DPDProof DPDSlave FeatureProof FeatureInst SystemProof ClientProof.
Local Open Scope Z_scope.

Section Statement.
  Context {W : Type} (lg : R -> R).
  #[local] Hint Extern 0 (Num R) => exact (NumR lg) : typeclass_instances.

  (** Group::score_value of the models whose function cannot fail. *)
  Definition bb_sv (_ : nat) (sh : bb_shared R) g v : outcome R := Ok (bb_score_value sh g v).
  Definition gp_sv (_ : nat) (sh : gp_shared R) g v : outcome R := Ok (gp_score_value sh g v).
  Definition bnb_sv (_ : nat) (sh : bnb_shared R) g v : outcome R := Ok (bnb_score_value sh g v).
  Definition nich_sv (_ : nat) (sh : nich_shared R) g v : outcome R := Ok (nich_score_value sh g v).

  (** The features of the library: every component model with its own value scorer
      (FastMixture) or with the cacheless one (SmallMixture), any Shared and any projection [pr]
      of the rows satisfying [ok].  For DirichletDiscrete: positive pseudocounts and values below
      dim; for DirichletProcessDiscrete: positive alpha and weights and values of the shared. *)
  Inductive library_feature (ok : W -> Prop) : feature W R -> Prop :=
  | lf_bb sh pr : library_feature ok (mk_feature (BB R) bb_vscorer bb_sv sh pr)
  | lf_bb_small sh pr : library_feature ok (mk_feature (BB R) (small_vscorer (C:=BB R) bb_sv) bb_sv sh pr)
  | lf_gp sh pr : library_feature ok (mk_feature (GP R) gp_vscorer gp_sv sh pr)
  | lf_gp_small sh pr : library_feature ok (mk_feature (GP R) (small_vscorer (C:=GP R) gp_sv) gp_sv sh pr)
  | lf_bnb sh pr : library_feature ok (mk_feature (BNB R) bnb_vscorer bnb_sv sh pr)
  | lf_bnb_small sh pr : library_feature ok (mk_feature (BNB R) (small_vscorer (C:=BNB R) bnb_sv) bnb_sv sh pr)
  | lf_nich sh pr : library_feature ok (mk_feature (NICH R) nich_vscorer nich_sv sh pr)
  | lf_nich_small sh pr : library_feature ok (mk_feature (NICH R) (small_vscorer (C:=NICH R) nich_sv) nich_sv sh pr)
  | lf_dd sh pr : List.Forall (fun a => 0 < a)%R (dd_alphas sh) -> (forall w, ok w -> 0 <= pr w < Z.of_nat (dd_dim sh)) ->
      library_feature ok (mk_feature (DD R) dd_vscorer dd_score_value sh pr)
  | lf_dd_small sh pr : List.Forall (fun a => 0 < a)%R (dd_alphas sh) -> (forall w, ok w -> 0 <= pr w < Z.of_nat (dd_dim sh)) ->
      library_feature ok (mk_feature (DD R) (small_vscorer (C:=DD R) dd_score_value) dd_score_value sh pr)
  | lf_dpd sh pr : (0 < dp_alpha sh)%R -> (forall v b, dp_betas sh !! v = Some b -> 0 < b)%R -> dp_betas sh !! OTHER = None ->
      (forall w, ok w -> pr w <> OTHER /\ dp_betas sh !! pr w <> None) ->
      library_feature ok (mk_feature (DPD R) dpd_vscorer dpd_score_value sh pr)
  | lf_dpd_small sh pr : (0 < dp_alpha sh)%R -> (forall v b, dp_betas sh !! v = Some b -> 0 < b)%R ->
      (forall w, ok w -> pr w <> OTHER /\ dp_betas sh !! pr w <> None) ->
      library_feature ok (mk_feature (DPD R) (small_vscorer (C:=DPD R) dpd_score_value) dpd_score_value sh pr).

  (** The group of feature [x] at packed id [p] is the group made of [rows] by init and add_value,
      in whatever order. *)
  Definition feature_holds dl (p : nat) (rows : list W) (x : fstate W R) : Prop :=
    exists grp, nth_error (sl_groups (fs_s x)) p = Some grp /\
      forall order, Permutation rows order -> c_filled (ft_c (fs_f x)) dl (ft_sh (fs_f x)) (map (ft_val (fs_f x)) order) = Ok grp.

  (** The three structures agree with the world of rows. *)
  Record aligned dl (s : sys W R) (w : world W) : Prop := {
    al_groups : length (counts (cdriver (sy_py s))) = length (fst w);
    al_packed : packed_size (sy_track s) = Z.of_nat (length (fst w));
    al_global : global_size (sy_track s) = snd w;
    al_slaves : List.Forall (fun x => length (sl_groups (fs_s x)) = length (fst w)) (sy_feats s);
    al_rows : sample_size (cdriver (sy_py s)) = Z.of_nat (rows_in (fst w));
    al_ids : List.NoDup (map fst (fst w));
    al_each : forall g rows, In (g, rows) (fst w) -> exists p,
      global_to_packed dl (sy_track s) g = Ok (Z.of_nat p) /\ packed_to_global dl (sy_track s) (Z.of_nat p) = Ok g /\
      nth_error (counts (cdriver (sy_py s))) p = Some (Z.of_nat (length rows)) /\
      List.Forall (feature_holds dl p rows) (sy_feats s) }.
End Statement.

Lemma library_follows {W} lg ok dl (f : feature W R) : library_feature lg ok f -> exists Inv pred, follows (N:=NumR lg) dl ok f Inv pred.
Proof.
  intros [sh pr|sh pr|sh pr|sh pr|sh pr|sh pr|sh pr|sh pr|sh pr Ha Ho|sh pr Ha Ho|sh pr Ha Hb H0 Ho|sh pr Ha Hb Ho].
  - apply fo_bb. - apply fo_bb_small. - apply fo_gp. - apply fo_gp_small. - apply fo_bnb. - apply fo_bnb_small.
  - apply fo_nich. - apply fo_nich_small. - now apply fo_dd. - now apply fo_dd_small. - now apply fo_dpd. - now apply fo_dpd_small.
Qed.
Lemma fs_follows {W} lg ok dl (feats : list (fstate W R)) : List.Forall (fun x => library_feature lg ok (fs_f x)) feats ->
  List.Forall (fun x => exists Inv pred, follows (N:=NumR lg) dl ok (fs_f x) Inv pred) feats.
Proof. apply List.Forall_impl. intros x. apply library_follows. Qed.
Lemma forall2_nth {A B} (P : A -> B -> Prop) l l' i a : List.Forall2 P l l' -> nth_error l i = Some a -> exists b, nth_error l' i = Some b /\ P a b.
Proof.
  intro H. revert i. induction H as [|u v l l' Hu H IH]; intros [|i] E; cbn in E |- *; try discriminate.
  - injection E as <-. eauto. - now apply IH.
Qed.
Lemma sinv_aligned {W} lg ok dl m feats (s : sys W R) L n live : sinv (N:=NumR lg) dl ok m feats s L n -> Permutation live L ->
  aligned dl s (live, n).
Proof.
  intros H P. destruct (inv_obs dl _ _ _ (si_track _ _ _ _ _ _ _ H)) as (T1 & T2 & T3 & _).
  pose proof (si_counts _ _ _ _ _ _ _ H) as Hc. pose proof (si_feats _ _ _ _ _ _ _ H) as Hf.
  pose proof (ok_fine _ _ _ (si_ok _ _ _ _ _ _ _ H)) as Fd.
  split; cbn [fst snd].
  - rewrite Hc, map_length. symmetry. now apply Permutation_length.
  - rewrite T1, map_length. f_equal. symmetry. now apply Permutation_length.
  - exact T2.
  - eapply List.Forall_impl; [|exact Hf]. intros x (Inv & pred & F & I).
    pose proof (Forall2_length _ _ _ (fo_groups _ _ _ _ _ F _ _ I Fd)) as X. rewrite map_length in X.
    rewrite <- X. symmetry. now apply Permutation_length.
  - destruct (si_py _ _ _ _ _ _ _ H) as [Hd _]. rewrite (dinv_size _ Hd), Hc, sum_rows. f_equal. symmetry. now apply rows_perm.
  - apply NoDup_ListNoDup. rewrite P. exact (ti_nodup _ _ _ (si_track _ _ _ _ _ _ _ H)).
  - intros g rows Hi. apply (Permutation_in _ P) in Hi. apply in_split in Hi as (L1 & L2 & ->). exists (length L1).
    destruct (gid_packed dl ok m feats s L1 g rows L2 n H) as [G1 G2]. split; [exact G1|]. split; [exact G2|]. split.
    + rewrite Hc, map_app, <- (map_length csize L1), nth_error_app2, Nat.sub_diag by lia. reflexivity.
    + eapply List.Forall_impl; [|exact Hf]. intros x (Inv & pred & F & I).
      destruct (forall2_nth _ _ _ (length L1) rows (fo_groups _ _ _ _ _ F _ _ I Fd)) as (grp & E & Hg).
      { rewrite map_app, <- (map_length snd L1), nth_error_app2, Nat.sub_diag by lia. reflexivity. }
      exists grp. split; [exact E|exact Hg].
Qed.

(** ** C14.  Every list of features, every debug level, every number k >= 1 of initial empty groups,
    whatever the caches held before, every history of rows put into and taken out of groups named
    by global id: no call fails and the driver, every mixture and the tracker agree on which rows
    every group holds. *)
Theorem C14_system_aligned : forall (W : Type) lg (ok : W -> Prop) dl (m : py R) old feats k ops (w : world W),
  (1 <= k)%nat -> Z.of_nat k <= 2 ^ 32 -> List.Forall (fun x => library_feature lg ok (fs_f x)) feats ->
  whistory ok (new_world k) ops w ->
  exists s0 s, sys_init (N:=NumR lg) dl m old feats k = Ok s0 /\ sys_run (N:=NumR lg) dl m s0 ops = Ok s /\
    map fs_f (sy_feats s) = map fs_f feats /\ aligned dl s w.
Proof.
  intros W lg ok dl m old feats k ops [live n] Hk Hk2 Hf Hh.
  destruct (sys_init_ok (N:=NumR lg) dl ok m old k feats Hk Hk2 (fs_follows lg ok dl feats Hf)) as (s0 & E0 & I0).
  destruct (run_world (N:=NumR lg) dl ok m _ ops s0 _ _ _ live n I0 (Permutation_refl _) Hh) as (s & L & E & I & P).
  exists s0, s. split; [exact E0|]. split; [exact E|]. split; [apply (si_same _ _ _ _ _ _ _ I)|]. eapply sinv_aligned; eauto.
Qed.
Print Assumptions C14_system_aligned.

(** The same for the initialisation of main.py:89-95, which calls add_group before init: right for
    mixtures whose caches were never used, other than those of DirichletDiscrete. *)
Inductive unused {W} (lg : R -> R) : fstate W R -> Prop :=
| un_bb sh pr gs : unused lg (mk_fstate (mk_feature (BB R) (bb_vscorer (N:=NumR lg)) (bb_sv lg) sh pr) (mk_slave (S:=bb_vscorer (N:=NumR lg)) gs (mk_bb_vs [] [])))
| un_gp sh pr gs : unused lg (mk_fstate (mk_feature (GP R) (gp_vscorer (N:=NumR lg)) (gp_sv lg) sh pr) (mk_slave (S:=gp_vscorer (N:=NumR lg)) gs (mk_gp_vs [] [] [])))
| un_bnb sh pr gs : unused lg (mk_fstate (mk_feature (BNB R) (bnb_vscorer (N:=NumR lg)) (bnb_sv lg) sh pr) (mk_slave (S:=bnb_vscorer (N:=NumR lg)) gs (mk_bnb_vs [] [] [])))
| un_nich sh pr gs : unused lg (mk_fstate (mk_feature (NICH R) (nich_vscorer (N:=NumR lg)) (nich_sv lg) sh pr) (mk_slave (S:=nich_vscorer (N:=NumR lg)) gs (mk_nich_vs [] [] [] [])))
| un_dpd sh pr gs : unused lg (mk_fstate (mk_feature (DPD R) (dpd_vscorer (N:=NumR lg)) (dpd_score_value (N:=NumR lg)) sh pr) (mk_slave (S:=dpd_vscorer (N:=NumR lg)) gs (mk_dpd_vs ∅ [])))
| un_small C gscore sh pr gs t : let S := small_vscorer (N:=NumR lg) gscore in
    unused lg (mk_fstate (mk_feature C S gscore sh pr) (mk_slave (S:=S) gs t)).
Definition adds_groups {W F} {N : Num F} dl (f : feature W F) (t : vs_t (ft_vs f)) : Prop := forall k, exists t',
  feat_add_groups dl k f (mk_slave [] t) = Ok (mk_slave (repeat (c_init (ft_c f) (ft_sh f)) k) t').
Lemma adds_coherent {W F} {N : Num F} dl (C : component) (S : vscorer C F) gscore sh (pr : W -> value_t C) stat Wf okc cache fsc :
  laws dl sh any stat -> coherent S dl sh Wf okc cache fsc ->
  adds_groups dl (mk_feature C S gscore sh pr) (cache []).
Proof.
  intros L H. set (f := mk_feature C S gscore sh pr).
  pose proof (follows_coherent dl (fun _ : W => False) C S (fun _ _ _ _ => Fail) sh pr any stat Wf okc cache fsc L H ltac:(intros w []) ltac:(intros l w _ _ [])) as Fo.
  assert (X : forall k j (s : slave S), good S Wf cache s /\ sl_groups s = map (fun rows => stat (map pr rows)) (repeat [] j) ->
    exists s', feat_add_groups dl k f s = Ok s' /\ sl_groups s' = repeat (c_init C sh) (j + k)).
  { induction k as [|k IH]; intros j s Hi; cbn [feat_add_groups].
    - exists s. split; [reflexivity|]. destruct Hi as [_ Hg]. etransitivity; [exact Hg|]. rewrite Nat.add_0_r, (map_repeat_nil (fun rows => stat (map pr rows))). cbn [map].
      now rewrite (la_init _ _ _ _ L).
    - assert (Fk : forall j, fine (fun _ : W => False) (repeat [] j)).
      { intro i. split; [apply List.Forall_forall; intros x Hx; apply repeat_spec in Hx; subst x; constructor|].
        replace (concat (repeat [] i)) with (@nil W); [cbn; lia|]. induction i; cbn [repeat concat]; auto. }
      destruct (fo_step _ _ _ _ _ Fo (repeat [] j) s SAddGroup (repeat [] j ++ [[]]) Hi (Fk j)) as (s' & E & I').
      { replace (repeat [] j ++ [[]]) with (repeat (@nil W) (j + 1)); [apply Fk|]. now rewrite repeat_app. }
      { constructor. } { discriminate. }
      cbn [slave_run1 vop ft_vs ft_sh] in E. unfold f. cbn [ft_vs ft_sh].
      match goal with |- exists s', obind ?a _ = _ /\ _ => replace a with (Ok s') by (symmetry; exact E) end. cbn [obind].
      destruct (IH (j + 1)%nat s') as (s2 & E2 & G2).
      { rewrite repeat_app. exact I'. }
      exists s2. split; [exact E2|]. etransitivity; [exact G2|]. f_equal. lia. }
  intro k. destruct (X k 0%nat (mk_slave [] (cache []))) as ([gs t'] & E & G).
  { split; [split; [constructor|reflexivity]|reflexivity]. }
  cbn [sl_groups] in G. subst gs. exists t'. exact E.
Qed.
Lemma sg_get_last {C : component} dl (gs : list (group_t C)) g : sg_get dl (gs ++ [g]) (length gs) = Ok g.
Proof. now apply (sg_get_at dl _ gs g []). Qed.
Lemma repeat_snoc {A} (x : A) k : repeat x k ++ [x] = repeat x (S k).
Proof. rewrite <- (Nat.add_1_r k), repeat_app. reflexivity. Qed.
Lemma adds_small {W F} {N : Num F} dl (C : component) gscore sh (pr : W -> value_t C) t :
  adds_groups dl (mk_feature C (small_vscorer gscore) gscore sh pr) t.
Proof.
  set (f := mk_feature C (small_vscorer gscore) gscore sh pr). intro k.
  assert (X : forall k j, feat_add_groups dl k f (mk_slave (repeat (c_init C sh) j) t) = Ok (mk_slave (repeat (c_init C sh) (j + k)) t)).
  { clear k. induction k as [|k IH]; intro j; cbn [feat_add_groups]; [now rewrite Nat.add_0_r|].
    unfold slave_add_group. cbn [sl_groups sl_vs ft_vs ft_sh ft_c f vs_add_group vs_update_group small_vscorer obind]. unfold sg_add_group, packed_add.
    rewrite sg_get_last. cbn [obind]. rewrite repeat_snoc, IH. do 3 f_equal. lia. }
  exists t. apply (X k 0%nat).
Qed.
Lemma adds_dpd {W F} {N : Num F} dl gscore sh (pr : W -> Z) : adds_groups dl (mk_feature (DPD F) dpd_vscorer gscore sh pr) (mk_dpd_vs ∅ []).
Proof.
  set (f := mk_feature (DPD F) dpd_vscorer gscore sh pr). intro k.
  assert (X : forall k j t, length t = j -> exists t', feat_add_groups dl k f (mk_slave (S:=dpd_vscorer (F:=F)) (repeat (c_init (DPD F) sh) j) (mk_dpd_vs ∅ t)) =
    Ok (mk_slave (repeat (c_init (DPD F) sh) (j + k)) t')).
  { clear k. induction k as [|k IH]; intros j t Hl; cbn [feat_add_groups]; [exists (mk_dpd_vs ∅ t); now rewrite Nat.add_0_r|].
    unfold slave_add_group. cbn [sl_groups sl_vs ft_vs ft_sh ft_c f vs_add_group vs_update_group dpd_vscorer]. unfold sg_add_group, packed_add.
    unfold dpd_vs_add_group, map_each. cbn [dpv_scores]. rewrite map_to_list_empty. cbn [obind each_entry].
    rewrite sg_get_last. cbn [obind]. unfold dpd_vs_update_group, map_each. cbn [dpv_scores dpv_shift]. rewrite map_to_list_empty.
    cbn [obind each_entry]. change (ctr_get_total (c_init (DPD F) sh)) with (Ok 0). cbn [obind].
    unfold packed_add. rewrite repeat_length, <- Hl, vset_mid by reflexivity. cbn [obind]. rewrite repeat_snoc.
    destruct (IH (S (length t)) (t ++ [nlog (nadd (dp_alpha sh) (nof 0))])) as [t' E']. { rewrite app_length. cbn. lia. }
    exists t'. etransitivity; [exact E'|]. do 3 f_equal. lia. }
  apply (X k 0%nat []). reflexivity.
Qed.
Lemma unused_adds {W} lg dl (x : fstate W R) : unused lg x -> adds_groups (N:=NumR lg) dl (fs_f x) (sl_vs (fs_s x)).
Proof.
  intros [sh pr gs|sh pr gs|sh pr gs|sh pr gs|sh pr gs|C gscore sh pr gs t]; cbn [fs_f fs_s sl_vs].
  - exact (adds_coherent (N:=NumR lg) dl _ _ _ sh pr _ _ _ _ _ ltac:(apply bb_laws) (bb_coherent (N:=NumR lg) dl sh)).
  - exact (adds_coherent (N:=NumR lg) dl _ _ _ sh pr _ _ _ _ _ ltac:(apply gp_laws) (gp_coherent (N:=NumR lg) dl sh)).
  - exact (adds_coherent (N:=NumR lg) dl _ _ _ sh pr _ _ _ _ _ ltac:(apply bnb_laws) (bnb_coherent (N:=NumR lg) dl sh)).
  - exact (adds_coherent (N:=NumR lg) dl _ _ _ sh pr _ _ _ _ _ ltac:(apply nich_laws) (nich_coherent (N:=NumR lg) dl sh)).
  - exact (adds_dpd (N:=NumR lg) dl _ sh pr).
  - exact (adds_small (N:=NumR lg) dl C gscore sh pr t).
Qed.
Lemma main_is_init {W} lg dl m old k (feats : list (fstate W R)) : List.Forall (unused lg) feats ->
  exists feats', map fs_f feats' = map fs_f feats /\
    sys_init_main (N:=NumR lg) dl m old feats k = sys_init (N:=NumR lg) dl m old feats' k.
Proof.
  intro H. unfold sys_init_main, sys_init.
  assert (exists feats', map fs_f feats' = map fs_f feats /\ each (feat_init_main dl k) feats = each (feat_init dl k) feats') as (feats' & M & E).
  { induction H as [|x feats Hx H (feats' & M & E)]; [exists []; auto|].
    destruct (unused_adds lg dl x Hx k) as [t Et]. exists (mk_fstate (fs_f x) (mk_slave [] t) :: feats'). cbn [map fs_f each]. split; [congruence|].
    unfold feat_init_main at 1, feat_init at 1, on_slave. cbn [fs_f fs_s sl_vs]. rewrite Et. cbn [obind]. now rewrite E. }
  exists feats'. split; [exact M|]. now rewrite E.
Qed.
Theorem C14_main_init_aligned : forall (W : Type) lg (ok : W -> Prop) dl (m : py R) old feats k ops (w : world W),
  (1 <= k)%nat -> Z.of_nat k <= 2 ^ 32 -> List.Forall (fun x => library_feature lg ok (fs_f x)) feats -> List.Forall (unused lg) feats ->
  whistory ok (new_world k) ops w ->
  exists s0 s, sys_init_main (N:=NumR lg) dl m old feats k = Ok s0 /\ sys_run (N:=NumR lg) dl m s0 ops = Ok s /\
    map fs_f (sy_feats s) = map fs_f feats /\ aligned dl s w.
Proof.
  intros W lg ok dl m old feats k ops w Hk Hk2 Hf Hu Hh. destruct (main_is_init lg dl m old k feats Hu) as (feats' & M & ->).
  rewrite <- M. apply (C14_system_aligned W lg ok dl m old feats' k ops w Hk Hk2); [|exact Hh].
  apply (List.Forall_map fs_f (library_feature lg ok)). rewrite M. now apply List.Forall_map.
Qed.
Print Assumptions C14_main_init_aligned.

(** With a DirichletDiscrete feature the initialisation of main.py has undefined behaviour for
    every Shared and every number of groups: add_group indexes score rows that init has not yet
    allocated and reads the uninitialised alpha_sum_ (dd.hpp:355-379). *)
Theorem C14_main_init_dd_refuted : forall (W F : Type) (N : Num F) dl (m : py F) old gscore sh (pr : W -> Z) gs k,
  (1 <= k)%nat -> let S := dd_vscorer (F:=F) in
  sys_init_main dl m old [mk_fstate (mk_feature (DD F) S gscore sh pr) (mk_slave (S:=S) gs (mk_dd_vs None [] []))] k = UB.
Proof.
  intros W F N dl m old gscore sh pr gs k Hk S. unfold sys_init_main.
  replace (1 <=? k)%nat with true by (symmetry; apply Nat.leb_le; lia). cbn [dassert obind].
  destruct (py_init_ok dl m old (repeat 0 k)) as (c & E & _).
  { assert (S0 : sum_sizes (repeat 0 k) = 0) by (clear; induction k; cbn [repeat sum_sizes]; lia).
    split; [|split; [destruct k; [lia|now left]|lia]]. apply List.Forall_forall. intros x Hx. apply repeat_spec in Hx. lia. }
  rewrite E. cbn [obind each]. destruct k as [|k]; [lia|].
  unfold feat_init_main, on_slave. cbn [fs_f fs_s feat_add_groups sl_vs ft_vs ft_sh]. unfold slave_add_group.
  cbn [sl_groups sl_vs vs_add_group vs_update_group dd_vscorer S]. unfold dd_vs_add_group. cbn [ddv_scores ddv_shift ddv_alpha_sum].
  destruct (dd_dim sh) as [|d] eqn:Ed; cbn [vfor vget nth_error obind].
  - unfold sg_add_group, packed_add. change (length []) with 0%nat.
    cbn [app]. unfold sg_get. rewrite dassert_at_true by reflexivity. cbn [obind vget nth_error]. unfold dd_vs_update_group. cbn [dd_alpha_sum_get ddv_alpha_sum obind]. reflexivity.
  - reflexivity.
Qed.
Print Assumptions C14_main_init_dd_refuted.

(** The removal pattern printed in doc/overview.rst:197-202 calls add_value on the mixtures: after
    any history, taking a row [x] out of a group of two or more rows leaves the driver with one
    row less and every mixture with one row more. *)
Theorem C14_overview_pattern_refuted : forall (W : Type) lg (ok : W -> Prop) dl (m : py R) old feats k ops (w : world W) g rows x,
  (1 <= k)%nat -> Z.of_nat k <= 2 ^ 32 -> List.Forall (fun x => library_feature lg ok (fs_f x)) feats ->
  whistory ok (new_world k) ops w -> Z.of_nat (rows_in (fst w)) + 1 < 2 ^ 31 ->
  In (g, rows) (fst w) -> In x rows -> (2 <= length rows)%nat ->
  exists s0 s p s', sys_init (N:=NumR lg) dl m old feats k = Ok s0 /\ sys_run (N:=NumR lg) dl m s0 ops = Ok s /\
    global_to_packed dl (sy_track s) g = Ok (Z.of_nat p) /\
    sys_remove_value_overview (N:=NumR lg) dl m s p x = Ok s' /\
    nth_error (counts (cdriver (sy_py s'))) p = Some (Z.of_nat (length rows) - 1) /\
    List.Forall (feature_holds dl p (x :: rows)) (sy_feats s').
Proof.
  intros W lg ok dl m old feats k ops [live n] g rows x Hk Hk2 Hf Hh Hb Hin Hx H2. cbn [fst] in *.
  destruct (sys_init_ok (N:=NumR lg) dl ok m old k feats Hk Hk2 (fs_follows lg ok dl feats Hf)) as (s0 & E0 & I0).
  destruct (run_world (N:=NumR lg) dl ok m _ ops s0 _ _ _ live n I0 (Permutation_refl _) Hh) as (s & L & E & I & P).
  pose proof (rows_perm _ _ P) as Rw. apply (Permutation_in _ P) in Hin. clear P Hh I0. apply in_split in Hin as (L1 & L2 & ->).
  exists s0, s, (length L1). rewrite Rw in Hb.
  pose proof (ok_fine _ _ _ (si_ok _ _ _ _ _ _ _ I)) as Fd. pose proof (si_counts _ _ _ _ _ _ _ I) as Hc. rewrite map_app in Hc. cbn [map] in Hc.
  pose proof (si_feats _ _ _ _ _ _ _ I) as Hfs. rewrite map_app in Fd, Hfs. cbn [map snd] in Fd, Hfs.
  assert (Hs : dstep (counts (cdriver (sy_py s))) (DRem (length L1) 1) (map csize L1 ++ (csize (g, rows) - 1) :: map csize L2) false).
  { rewrite Hc, <- (map_length csize L1). constructor; [lia|]. unfold csize. cbn [snd]. lia. }
  destruct (py_step_ok (N:=NumR lg) dl m (sy_py s) _ _ _ (si_py _ _ _ _ _ _ _ I) Hs) as (c1 & E1 & I1 & C1).
  { rewrite sum_sizes_app. cbn [sum_sizes]. destruct (si_ok _ _ _ _ _ _ _ I) as (_ & B & _). cbn [fst] in B. rewrite <- sum_rows, map_app, sum_sizes_app in B.
    cbn [map sum_sizes] in B. lia. }
  assert (Fd' : fine ok (map snd L1 ++ (x :: rows) :: map snd L2)).
  { destruct Fd as [A B]. split.
    - apply List.Forall_app in A as [A1 A2]. apply List.Forall_app. split; [exact A1|]. inversion A2 as [|? ? A3 A4]; subst. constructor; [|exact A4].
      constructor; [|exact A3]. rewrite List.Forall_forall in A3. now apply A3.
    - unfold rows_in in Hb. rewrite map_app, !concat_app in *. cbn [map concat snd] in *. rewrite !app_length in *. cbn [length] in *. lia. }
  assert (St : sstep (map snd L1 ++ rows :: map snd L2) (SAdd (length L1) x) (map snd L1 ++ (x :: rows) :: map snd L2)).
  { rewrite <- (map_length snd L1). constructor. }
  destruct (each_ok (feat_add_value dl (length L1) x) _ _ _ (feat_step (N:=NumR lg) dl ok _ _ _ _ Fd Fd' St ltac:(discriminate) (fun f t => eq_refl)) Hfs)
    as (l' & E' & Q & M).
  eexists. split; [exact E0|]. split; [exact E|]. split; [apply (gid_packed dl ok m _ s L1 g rows L2 n I)|]. split; [|split].
  - unfold sys_remove_value_overview. cbn [pyrun1] in E1. rewrite E1. cbn [obind snd]. rewrite E'. cbn [obind]. reflexivity.
  - cbn [sy_py fst]. rewrite C1, <- (map_length csize L1), nth_error_app2, Nat.sub_diag by lia. reflexivity.
  - cbn [sy_feats]. eapply List.Forall_impl; [|exact Q]. intros y (Inv & pred & F & J).
    destruct (forall2_nth _ _ _ (length L1) (x :: rows) (fo_groups _ _ _ _ _ F _ _ J Fd')) as (grp & Eg & Hg).
    { rewrite <- (map_length snd L1), nth_error_app2, Nat.sub_diag by lia. reflexivity. }
    exists grp. split; [exact Eg|exact Hg].
Qed.
Print Assumptions C14_overview_pattern_refuted.

(** ** C61.  The scores of a row, driver and all features together: for every live group, the
    log-probability of the two-parameter restaurant rule for its size plus, for every feature,
    Group::score_value of a group holding exactly its rows. *)
Definition empty_groups {W} (live : list (Z * list W)) : nat := length (List.filter (fun p => length (snd p) =? 0)%nat live).
Theorem C61_system_scores : forall (W : Type) lg (ok : W -> Prop) dl (m : py R) old feats k ops (w : world W) x,
  (0 < alpha m /\ 0 <= disc m < 1)%R ->
  (1 <= k)%nat -> Z.of_nat k <= 2 ^ 32 -> List.Forall (fun x => library_feature lg ok (fs_f x)) feats ->
  whistory ok (new_world k) ops w -> ok x ->
  exists s0 s scores, sys_init (N:=NumR lg) dl m old feats k = Ok s0 /\ sys_run (N:=NumR lg) dl m s0 ops = Ok s /\
    sys_score_value (N:=NumR lg) dl m s x (length (fst w)) = Ok scores /\ length scores = length (fst w) /\
    forall g rows, In (g, rows) (fst w) -> exists p ys,
      global_to_packed dl (sy_track s) g = Ok (Z.of_nat p) /\
      List.Forall2 (fun f y => exists grp, c_filled (ft_c f) dl (ft_sh f) (map (ft_val f) rows) = Ok grp /\
                               ft_score f dl (ft_sh f) grp (ft_val f x) = Ok y) (map fs_f feats) ys /\
      nth_error scores p = Some (py_score_add (N:=NumR lg) m (Z.of_nat (length rows))
        (Z.of_nat (length (fst w) - empty_groups (fst w))) (Z.of_nat (rows_in (fst w))) (Z.of_nat (empty_groups (fst w))) + rsum ys)%R.
Proof.
  intros W lg ok dl m old feats k ops [live n] x Hm Hk Hk2 Hf Hh Hx. cbn [fst].
  destruct (sys_init_ok (N:=NumR lg) dl ok m old k feats Hk Hk2 (fs_follows lg ok dl feats Hf)) as (s0 & E0 & I0).
  destruct (run_world (N:=NumR lg) dl ok m _ ops s0 _ _ _ live n I0 (Permutation_refl _) Hh) as (s & L & E & I & P).
  pose proof (si_py _ _ _ _ _ _ _ I) as Hp. pose proof (si_counts _ _ _ _ _ _ _ I) as Hc.
  pose proof (si_feats _ _ _ _ _ _ _ I) as Hfs. pose proof (ok_fine _ _ _ (si_ok _ _ _ _ _ _ _ I)) as Fd.
  pose proof (Permutation_length P) as PL.
  assert (Ne : num_empty (map csize L) = empty_groups live).
  { transitivity (empty_groups L).
    - unfold num_empty, empty_groups. clear. induction L as [|[g rows] L IH]; [reflexivity|]. cbn [map count_occ List.filter snd]. unfold csize at 1. cbn [snd].
      destruct rows as [|r rows]; cbn [length Nat.eqb Z.of_nat].
      + rewrite IH. reflexivity.
      + destruct (BinInt.Z.eq_dec _ 0); [discriminate|]. exact IH.
    - unfold empty_groups. symmetry. clear -P. induction P as [|a l l' P IH|a b l|l1 l2 l3 P1 IH1 P2 IH2]; cbn [List.filter]; auto.
      + destruct (length (snd a) =? 0)%nat; cbn [length]; congruence.
      + destruct (length (snd a) =? 0)%nat, (length (snd b) =? 0)%nat; reflexivity.
      + congruence. }
  assert (Rw : sum_sizes (map csize L) = Z.of_nat (rows_in live)) by (rewrite sum_rows; f_equal; symmetry; now apply rows_perm).
  set (f0 := fun n => py_score_add (N:=NumR lg) m n (Z.of_nat (length live - empty_groups live)) (Z.of_nat (rows_in live)) (Z.of_nat (empty_groups live))).
  assert (Sc : py_score_value (N:=NumR lg) dl m (sy_py s) (length live) = Ok (map f0 (map csize L))).
  { pose proof (py_score_value_ok (N:=NumR lg) dl m (sy_py s) Hp) as X. rewrite Hc, map_length, <- PL in X. rewrite X. f_equal. apply map_ext_in.
    intros c Hin. unfold f0. rewrite <- Ne, <- Rw, PL, <- (map_length csize L). destruct Hp as [Hd _].
    assert (D1 := dinv_nonneg _ Hd). rewrite Hc in D1. assert (D2 := dinv_has _ Hd). rewrite Hc in D2.
    apply (cached_eq_direct lg m (map csize L) c Hm D1 D2). rewrite List.Forall_forall in D1. now apply D1. }
  destruct (feats_score_ok (N:=NumR lg) dl ok (map snd L) x Fd Hx (sy_feats s) (map f0 (map csize L)) Hfs) as (r & Er & Lr & Hr).
  { now rewrite !map_length. }
  exists s0, s, r. split; [exact E0|]. split; [exact E|]. split; [|split].
  - unfold sys_score_value. rewrite Sc. exact Er.
  - now rewrite Lr, map_length.
  - intros g rows Hin. apply (Permutation_in _ P) in Hin. apply in_split in Hin as (L1 & L2 & ->).
    destruct (Hr (length L1) rows (f0 (csize (g, rows)))) as (ys & F2 & En).
    { rewrite map_app, <- (map_length snd L1), nth_error_app2, Nat.sub_diag by lia. reflexivity. }
    { rewrite map_map, map_app, <- (map_length (fun y => f0 (csize y)) L1), nth_error_app2, Nat.sub_diag by lia. reflexivity. }
    exists (length L1), ys. split; [apply (gid_packed dl ok m _ s L1 g rows L2 n I)|]. split.
    + rewrite <- (si_same _ _ _ _ _ _ _ I). clear -F2. induction F2 as [|f y fs ys Hy F2 IH]; cbn [map]; constructor; [|exact IH].
      destruct Hy as (grp & _ & A & B). eauto.
    + rewrite En. f_equal. unfold csize, f0. cbn [snd nadd NumR]. clear.
      generalize (py_score_add (N:=NumR lg) m (Z.of_nat (length rows)) (Z.of_nat (length live - empty_groups live)) (Z.of_nat (rows_in live)) (Z.of_nat (empty_groups live))).
      induction ys as [|y ys IH]; intro z; cbn [fold_left rsum]; [lra|]. rewrite IH. lra.
Qed.
Print Assumptions C61_system_scores.

(** ** C62.  Every program made of seating and unseating rows, whatever the sampler chooses: no call
    fails; in the end exactly the seated rows are assigned, to live groups, and every group
    (hence, by [aligned], every mixture's group and the driver's size) holds exactly the rows
    assigned to it. *)
Theorem C62_sampler_keeps_assignments : forall (W : Type) lg (ok : W -> Prop) dl (m : py R) old feats k (data : list W) ops seated,
  (1 <= k)%nat -> List.Forall (fun x => library_feature lg ok (fs_f x)) feats ->
  List.Forall ok data -> Z.of_nat (length data) < 2 ^ 31 -> Z.of_nat k + seats ops <= 2 ^ 32 ->
  plan (length data) [] ops seated ->
  exists s0 c w, sys_init (N:=NumR lg) dl m old feats k = Ok s0 /\
    client_run (N:=NumR lg) dl m data (mk_client s0 ∅) ops = Ok c /\
    aligned dl (cl_sys c) w /\
    (forall i, In i seated <-> cl_assign c !! i <> None) /\
    (forall i g, cl_assign c !! i = Some g -> In g (map fst (fst w))) /\
    (forall g rows, In (g, rows) (fst w) -> exists is, List.NoDup is /\ (forall i, In i is <-> cl_assign c !! i = Some g) /\
       List.Forall2 (fun i row => nth_error data i = Some row) is rows).
Proof.
  intros W lg ok dl m old feats k data ops seated Hk Hf Hd Hl Hn Hp.
  assert (H0 : forall ops : list (cop R), 0 <= seats ops) by (induction ops0 as [|[i p|i] ops0 IH]; cbn [seats]; lia).
  pose proof (H0 ops).
  destruct (sys_init_ok (N:=NumR lg) dl ok m old k feats Hk ltac:(lia) (fs_follows lg ok dl feats Hf)) as (s0 & E0 & I0).
  assert (C0 : cinv (N:=NumR lg) dl ok m (map fs_f feats) data (mk_client s0 ∅) (fst (new_world k)) (Z.of_nat k) []).
  { apply client_start; [exact I0|]. unfold rows_in. rewrite (proj1 (proj2 (new_perm k))). clear. induction k; cbn [repeat concat]; auto. }
  destruct (client_ok (N:=NumR lg) dl ok m _ data Hd Hl ops _ _ _ _ seated C0 Hp Hn) as (c & L & n & E & I).
  exists s0, c, (L, n). split; [exact E0|]. split; [exact E|]. split; [|split; [|split]].
  - eapply sinv_aligned; [apply (ci_sys _ _ _ _ _ _ _ _ _ I)|reflexivity].
  - intro i. rewrite (ci_seated _ _ _ _ _ _ _ _ _ I). destruct (cl_assign c !! i) as [g|]; split; try congruence; eauto. intros [g X]. discriminate.
  - apply (ci_live _ _ _ _ _ _ _ _ _ I).
  - apply (ci_members _ _ _ _ _ _ _ _ _ I).
Qed.
Print Assumptions C62_sampler_keeps_assignments.

(** main.py's programs are such plans, for every number of rows and passes. *)
Lemma plan_app {F} n (a : list nat) (o1 o2 : list (cop F)) b c : plan n a o1 b -> plan n b o2 c -> plan n a (o1 ++ o2) c.
Proof. induction 1; intro H'; cbn [app]; [exact H'|now constructor; auto|constructor; auto]. Qed.
Definition within {F} (pick : nat -> list F -> nat) : Prop := forall i scores, scores <> [] -> (pick i scores < length scores)%nat.
Lemma first_pass_plan {F} n (pick : nat -> list F -> nat) : within pick -> plan n [] (first_pass n pick) (rev (seq 0 n)).
Proof.
  intro Hp. unfold first_pass.
  assert (X : forall k j seated, (j + k <= n)%nat -> (forall i, In i seated -> (i < j)%nat) ->
            plan n seated (map (fun i => Seat i (pick i)) (seq j k)) (rev (seq j k) ++ seated)).
  { induction k as [|k IH]; intros j seated Hj Hs; cbn [seq map rev app]; [constructor|].
    constructor; [lia|intro X; apply Hs in X; lia|apply Hp|]. rewrite <- app_assoc. cbn [app]. apply IH; [lia|].
    intros i [<-|Hi]; [lia|]. specialize (Hs i Hi). lia. }
  specialize (X n 0%nat [] ltac:(lia) ltac:(intros i [])). now rewrite app_nil_r in X.
Qed.
Lemma gibbs_pass_plan {F} n (pick : nat -> list F -> nat) seated : within pick -> List.NoDup seated -> (forall i, In i seated <-> (i < n)%nat) ->
  exists seated', plan n seated (gibbs_pass n pick) seated' /\ List.NoDup seated' /\ (forall i, In i seated' <-> (i < n)%nat).
Proof.
  intros Hp Nd Hs. unfold gibbs_pass.
  assert (X : forall k j seated, (j + k <= n)%nat -> List.NoDup seated -> (forall i, In i seated <-> (i < n)%nat) ->
    exists seated', plan n seated (flat_map (fun i => [Unseat i; Seat i (pick i)]) (seq j k)) seated' /\ List.NoDup seated' /\ (forall i, In i seated' <-> (i < n)%nat)).
  { clear seated Nd Hs. induction k as [|k IH]; intros j seated Hj Nd Hs; cbn [seq flat_map app].
    - exists seated. split; [constructor|]. now split.
    - assert (Hi : In j seated) by (apply Hs; lia). apply in_split in Hi as (a & b & ->).
      assert (Nd' := List.NoDup_remove_1 _ _ _ Nd). assert (Nj := List.NoDup_remove_2 _ _ _ Nd).
      destruct (IH (S j) (j :: a ++ b)) as (s' & P & N' & S'); [lia|now constructor| |].
      { intro i. rewrite <- Hs. cbn [In]. rewrite !in_app_iff. cbn [In]. tauto. }
      exists s'. split; [|now split]. constructor. constructor; [lia|exact Nj|apply Hp|exact P]. }
  destruct (X n 0%nat seated ltac:(lia) Nd Hs) as (s' & P & H'). eauto.
Qed.
Theorem C62_gibbs_programs_are_plans : forall (F : Type) n passes (pick : nat -> nat -> list F -> nat), (forall t, within (pick t)) ->
  exists seated, plan n [] (first_pass n (pick 0%nat) ++ concat (map (fun t => gibbs_pass n (pick (S t))) (seq 0 passes))) seated /\
    forall i, In i seated <-> (i < n)%nat.
Proof.
  intros F n passes pick Hp.
  assert (X : forall k j seated, List.NoDup seated -> (forall i, In i seated <-> (i < n)%nat) -> exists seated',
    plan n seated (concat (map (fun t => gibbs_pass n (pick (S t))) (seq j k))) seated' /\ (forall i, In i seated' <-> (i < n)%nat)).
  { induction k as [|k IH]; intros j seated Nd Hs; cbn [seq map concat].
    - exists seated. split; [constructor|exact Hs].
    - destruct (gibbs_pass_plan n (pick (S j)) seated (Hp _) Nd Hs) as (s1 & P1 & N1 & S1).
      destruct (IH (S j) s1 N1 S1) as (s2 & P2 & S2). exists s2. split; [|exact S2]. eapply plan_app; eauto. }
  destruct (X passes 0%nat (rev (seq 0 n))) as (s' & P & S').
  { apply List.NoDup_rev, seq_NoDup. }
  { intro i. rewrite <- in_rev, in_seq. lia. }
  exists s'. split; [|exact S']. eapply plan_app; [now apply first_pass_plan|exact P].
Qed.
Print Assumptions C62_gibbs_programs_are_plans.

(** Features on rows that are integers, and a history that fills two groups, empties the first
    (another group takes its place) and fills a third. *)
Definition ex_feats lg : list (fstate Z R) :=
  [ mk_fstate (mk_feature (BB R) (bb_vscorer (N:=NumR lg)) (bb_sv lg) (mk_bb_shared 1 2) Z.even) (mk_slave (S:=bb_vscorer (N:=NumR lg)) [] (mk_bb_vs [] []));
    mk_fstate (mk_feature (NICH R) (nich_vscorer (N:=NumR lg)) (nich_sv lg) (mk_nich_shared 0 1 1 1) IZR) (mk_slave (S:=nich_vscorer (N:=NumR lg)) [] (mk_nich_vs [] [] [] []));
    mk_fstate (mk_feature (DD R) (dd_vscorer (N:=NumR lg)) (dd_score_value (N:=NumR lg)) (mk_dd_shared [1; 2]%R) (fun z => z mod 2)) (mk_slave (S:=dd_vscorer (N:=NumR lg)) [] (mk_dd_vs None [] [])) ]%R.
Definition ex_wops : list (wop Z) := [WAdd 0 5; WAdd 0 7; WAdd 1 4; WRem 0 5; WRem 0 7; WAdd 2 9].
Example C14_nonvacuous : forall lg,
  List.Forall (fun x => library_feature lg (fun _ => True) (fs_f x)) (ex_feats lg) /\
  whistory (fun _ => True) (new_world 2) ex_wops ([(1, [4]); (2, [9]); (3, []); (4, [])], 5).
Proof.
  intro lg. split.
  - unfold ex_feats. repeat apply List.Forall_cons; [apply lf_bb|apply lf_nich| |apply List.Forall_nil].
    apply lf_dd; cbn [dd_alphas dd_dim].
    + repeat (apply List.Forall_cons; [lra|]). apply List.Forall_nil.
    + intros w _. change (Z.of_nat 2) with 2. now apply Z.mod_pos_bound.
  - Ltac wk := split; [cbn; repeat (apply List.Forall_cons; [cbn; repeat constructor|]); apply List.Forall_nil|split; vm_compute; congruence].
    unfold ex_wops, new_world. cbn [seq map Z.of_nat].
    eapply wh_cons; [apply (w_add_first [] 0 [(1, [])])|wk|cbn [app]].
    eapply wh_cons; [apply (w_add_more [] 0 5 [])|wk|cbn [app]].
    eapply wh_cons; [apply (w_add_first [(0, [7; 5])] 1 [(2, [])])|wk|cbn [app]].
    eapply wh_cons; [apply (w_rem_some [] 0 [7] 5 []); discriminate|wk|cbn [app]].
    eapply wh_cons; [apply (w_rem_last [] 0 7)|wk|cbn [app]].
    eapply wh_cons; [apply (w_add_first [(1, [4])] 2 [(3, [])])|wk|cbn [app]]. apply wh_nil.
Qed.
(** A group of two rows, as the refuted removal pattern supposes. *)
Example C14_overview_reachable : whistory (fun _ : Z => True) (new_world 1) [WAdd 0 5; WAdd 0 7] ([(0, [7; 5]); (1, [])], 2).
Proof.
  unfold new_world. cbn [seq map Z.of_nat].
  eapply wh_cons; [apply (w_add_first [] 0 [])|wk|cbn [app]].
  eapply wh_cons; [apply (w_add_more [] 0 5 [])|wk|cbn [app]]. apply wh_nil.
Qed.
