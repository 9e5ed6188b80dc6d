(** Histories of the Dirichlet-process-discrete mixture, on the data its groups hold. *)
From Coq Require Import Permutation Reals Lra.
From Verif.spec Require Import GroupSpec GaussSpec SharedSpec SlaveSpec.
From Verif.model Require Import Base Packed Num NumR VectorMath Component Slave SlaveRun Sparse DPD SharedRun.
From Verif.proof Require Import BaseProof VectorProof PackedProof LoopProof GroupProof SlaveProof.
From stdpp Require Import gmap.
From Verif.proof Require Import MapSum DPDProof DPDScore DPDShared DPDSlave.
Local Open Scope Z_scope.

Section S.
  Context {F : Type} {N : Num F}.
  Variable dl : nat.
  Hypothesis Hz : forall x : F, nadd x (nof 0) = x.
  Notation SV := (dpd_vscorer (F:=F)).
  Implicit Types (sh : dpd_shared F) (data : list (list Z)) (s : slave SV).

  Definition vst s : dpd_vs F := sl_vs s.
  Definition grp s : list counter := sl_groups s.
  Definition known_data sh data : Prop := List.Forall (drawn_from (dpd_known sh)) data.
  Definition exact_refs data t : Prop := forall v, ref_of (F:=F) t v = tot data v /\ (has t v -> tot data v <> 0).
  Definition counted data t : Prop := forall v, ref_of (F:=F) t v = tot data v.
  Definition drops_empty data (o : sop Z) : Prop := match o with SRemGroup i => nth_error data i = Some [] | _ => True end.

  Lemma known_data_app sh d1 xs d2 : known_data sh (d1 ++ xs :: d2) -> drawn_from (dpd_known sh) xs.
  Proof. intro H. apply List.Forall_app in H as [_ H]. now inversion H. Qed.
  Lemma ref_nonneg sh data t v : vsinv sh data t -> 0 <= ref_of t v.
  Proof.
    intro H. unfold ref_of. destruct (dpv_scores t !! v) as [[r s]|] eqn:E; [|lia].
    destruct (vi_entry _ _ _ H _ _ _ E) as (b & _ & _ & Hr). pose proof (tot_nonneg data v). cbn [fst]. lia.
  Qed.
  Lemma dassert_lt i n : (i < n)%nat -> dassert_at dl 1 (i <? n)%nat = Ok tt.
  Proof. intro H. apply dassert_at_true. now apply Nat.ltb_lt. Qed.
  Lemma sg_get_mid (gs : list counter) p a q i : gs = p ++ a :: q -> length p = i -> sg_get (C:=DPD F) dl gs i = Ok a.
  Proof.
    intros -> Hi. unfold sg_get. cbn [group_t DPD] in *. rewrite dassert_lt by (rewrite app_length; cbn [length]; lia).
    cbn [obind]. now apply vget_mid.
  Qed.

  Lemma start_data sh data garbage : known_data sh data -> (forall v, tot data v < 4294967296) ->
    exists s, slave_init SV dl sh (mk_slave (S:=SV) (map dpd_stat data) garbage) = Ok s /\ grp s = map dpd_stat data /\
      vsinv sh data (vst s) /\ (forall v, has (vst s) v <-> dp_betas sh !! v <> None) /\ (forall v, ref_of (vst s) v = tot data v).
  Proof.
    intros Hk Ht. destruct (init_ok dl sh garbage data) as (t & E & A & B & D); [|exact Ht|].
    { eapply List.Forall_impl; [|exact Hk]. intros xs [_ Hx]. exact Hx. }
    exists (mk_slave (S:=SV) (map dpd_stat data) t). split; [|split; [reflexivity|auto]].
    unfold slave_init. cbn [sl_groups sl_vs vs_resize vs_update_all dpd_vscorer]. rewrite map_length.
    destruct (dpd_vs_resize dl sh garbage (length data)) as [t1| |]; cbn [obind] in *; try discriminate. now rewrite E.
  Qed.

  Lemma step_data sh data s o data' : grp s = map dpd_stat data -> vsinv sh data (vst s) -> sstep data o data' ->
    known_data sh data -> known_data sh data' -> (forall v, ref_of (vst s) v + 1 < 4294967296) ->
    exists s', slave_run1 SV dl sh s o = Ok s' /\ grp s' = map dpd_stat data' /\ vsinv sh data' (vst s') /\
      (forall v, ref_of (vst s') v <= ref_of (vst s) v + 1) /\
      (exact_refs data (vst s) -> drops_empty data o -> exact_refs data' (vst s')) /\
      (counted data (vst s) -> drops_empty data o -> counted data' (vst s')).
  Proof.
    intros Hg H Hst Hk Hk' Hr. destruct s as [gs t]. unfold grp, vst in *. cbn [sl_groups sl_vs] in *. subst gs.
    destruct Hst as [d|i d xs d' Ho|d1 xs d2 v|d1 a v b d2]; cbn [slave_run1].
    - destruct (addg_ok dl sh d t H) as (t1 & t2 & E1 & E2 & A & B & D).
      unfold slave_add_group. cbn [sl_groups sl_vs vs_add_group vs_update_group dpd_vscorer]. rewrite E1. cbn [obind].
      rewrite (sg_get_mid _ (map dpd_stat d) (dpd_stat []) []); [|reflexivity|reflexivity].
      cbn [obind]. rewrite map_length. rewrite E2. cbn [obind]. eexists. split; [reflexivity|]. cbn [sl_groups sl_vs].
      split; [rewrite map_app; reflexivity|]. split; [exact A|]. split; [intro v; rewrite D; lia|].
      split.
      + intros He _ v. rewrite D, tot_app, tot_cons. cbn [tot fold_right]. unfold zcount. cbn [count_occ]. destruct (He v) as [X Y].
        split; [lia|]. rewrite B. intro Z. apply Y in Z. lia.
      + intros He _ v. rewrite D, (He v), tot_app, tot_cons. cbn [tot fold_right]. unfold zcount. cbn [count_occ]. lia.
    - destruct (remg_ok dl sh d t i xs d' H Ho) as (t' & E & A & B & D).
      unfold slave_remove_group, sg_remove_group. cbn [sl_groups sl_vs vs_remove_group dpd_vscorer].
      rewrite (taken_out_packed _ dl _ _ _ _ Ho). cbn [obind]. rewrite E. cbn [obind]. eexists. split; [reflexivity|]. cbn [sl_groups sl_vs].
      split; [reflexivity|]. split; [exact A|]. split; [intro v; rewrite D; lia|].
      assert (X : drops_empty d (SRemGroup i) -> forall v, tot d v = tot d' v).
      { intros Hd v. cbn [drops_empty] in Hd. assert (xs = []) as ->.
        { destruct Ho as [l x|l x m z]; rewrite nth_error_app2, Nat.sub_diag in Hd by lia; cbn in Hd; congruence. }
        rewrite (tot_perm _ _ v (taken_out_perm _ _ _ _ Ho)), tot_cons; reflexivity. }
      split; intros He Hd v; rewrite D, ?B, <- (X Hd v); apply He.
    - apply known_data_app in Hk' as Hv. pose proof (ref_nonneg _ _ _ v H) as Hn.
      destruct (addv_ok dl Hz sh d1 xs d2 t v H) as (t' & E & A & B & D); [|exact Hn|apply Hr|].
      { destruct Hv as [_ Hv]. now inversion Hv. }
      unfold slave_add_value, sg_add_value. cbn [sl_groups sl_vs vs_add_value dpd_vscorer].
      rewrite map_app. cbn [map]. rewrite (sg_get_mid _ (map dpd_stat d1) (dpd_stat xs) (map dpd_stat d2)) by (try reflexivity; apply map_length).
      cbn [obind]. rewrite dpd_add_stat by exact Hv. cbn [obind]. rewrite vset_mid by apply map_length. cbn [obind].
      rewrite (sg_get_mid _ (map dpd_stat d1) (dpd_stat (v :: xs)) (map dpd_stat d2)) by (try reflexivity; apply map_length).
      cbn [obind]. rewrite E. cbn [obind]. eexists. split; [reflexivity|]. cbn [sl_groups sl_vs].
      split; [now rewrite map_app|]. split; [exact A|]. split; [intro w; rewrite D; destruct (w =? v); lia|].
      split; [|intros He _ w; rewrite D, (He w), !tot_app, !tot_cons, zcount_cons; destruct (Z.eqb_spec w v) as [Ew|]; [subst w|]; lia].
      intros He _ w. rewrite D. destruct (He w) as [X Y]. rewrite !tot_app, !tot_cons in X, Y |- *. rewrite zcount_cons.
      destruct (Z.eqb_spec w v) as [->|Hw].
      + split; [lia|]. intros _. pose proof (zcount_nonneg xs v). pose proof (tot_nonneg d1 v). pose proof (tot_nonneg d2 v). lia.
      + split; [lia|]. rewrite B. intros [Z|Z]; [now apply Y|contradiction].
    - apply known_data_app in Hk as Hv. pose proof (Permutation_middle a b v) as P. apply Permutation_sym in P.
      apply (drawn_perm _ _ _ P) in Hv as Hv'.
      destruct (remv_ok dl sh d1 (a ++ v :: b) (a ++ b) d2 t v H) as (t' & E & A & B & B' & D); [|specialize (Hr v); lia|exact P|].
      { destruct Hv' as [_ Hv']. inversion Hv' as [|? ? [X _]]. exact X. }
      unfold slave_remove_value, sg_remove_value. cbn [sl_groups sl_vs vs_remove_value dpd_vscorer].
      rewrite map_app. cbn [map]. rewrite (sg_get_mid _ (map dpd_stat d1) (dpd_stat (a ++ v :: b)) (map dpd_stat d2)) by (try reflexivity; apply map_length).
      cbn [obind]. rewrite (dpd_stat_perm _ _ P). rewrite dpd_rem_stat by exact Hv'. cbn [obind]. rewrite vset_mid by apply map_length. cbn [obind].
      rewrite (sg_get_mid _ (map dpd_stat d1) (dpd_stat (a ++ b)) (map dpd_stat d2)) by (try reflexivity; apply map_length).
      cbn [obind]. rewrite E. cbn [obind]. eexists. split; [reflexivity|]. cbn [sl_groups sl_vs].
      split; [now rewrite map_app|]. split; [exact A|]. split; [intro w; rewrite D; destruct (w =? v); lia|].
      split; [|intros He _ w; rewrite D, (He w), !tot_app, !tot_cons, (zcount_perm _ _ w P), zcount_cons; destruct (Z.eqb_spec w v) as [Ew|]; [subst w|]; lia].
      intros He _ w. rewrite D. destruct (He w) as [X Y]. rewrite !tot_app, !tot_cons in X, Y |- *.
      rewrite (zcount_perm _ _ w P) in X, Y. rewrite zcount_cons in X, Y.
      destruct (Z.eqb_spec w v) as [Ew|Hw]; [subst w|].
      + split; [lia|]. rewrite B'. rewrite D, Z.eqb_refl. lia.
      + split; [lia|]. rewrite (B w Hw). exact Y.
  Qed.

  Lemma run_data sh ops : forall data data' s B, grp s = map dpd_stat data -> vsinv sh data (vst s) ->
    known_data sh data -> shistory (known_data sh) data ops data' ->
    (forall v, ref_of (vst s) v <= B) -> B + Z.of_nat (length ops) < 4294967296 ->
    exists s', slave_run SV dl sh s ops = Ok s' /\ grp s' = map dpd_stat data' /\ vsinv sh data' (vst s') /\ known_data sh data'.
  Proof.
    induction ops as [|o ops IH]; intros data data' s B Hg H Hk Hh Hr HB; inversion Hh as [|? ? d1 ? ? Hst Hk1 Hh1]; subst; cbn [slave_run].
    - exists s. auto.
    - cbn [length] in HB. destruct (step_data sh data s o d1 Hg H Hst Hk Hk1) as (s1 & E & G1 & H1 & R1 & _).
      { intro v. specialize (Hr v). lia. }
      rewrite E. cbn [obind]. apply (IH d1 data' s1 (B + 1)); auto.
      + intro v. specialize (R1 v). specialize (Hr v). lia. + lia.
  Qed.

  Lemma slave_score_group_ok sh data s i xs v : grp s = map dpd_stat data -> vsinv sh data (vst s) -> dp_betas sh !! OTHER = None ->
    scorable sh v -> nth_error data i = Some xs -> slave_score_value_group SV dl sh s i v = Ok (dfast sh xs v).
  Proof.
    intros Hg H Ho Hv Hi. unfold slave_score_value_group. unfold grp, vst in *.
    rewrite dassert_at_true by (rewrite Hg, map_length; apply Nat.ltb_lt; eapply nth_lt, Hi). cbn [obind].
    cbn [vs_score_group dpd_vscorer]. rewrite Hg. now apply score_group_ok.
  Qed.
  Lemma slave_score_ok sh data s v accum : grp s = map dpd_stat data -> vsinv sh data (vst s) -> dp_betas sh !! OTHER = None ->
    scorable sh v -> length accum = length data ->
    slave_score_value SV dl sh s v accum = Ok (col_add accum (map (fun xs => dfast sh xs v) data)).
  Proof.
    intros Hg H Ho Hv Hl. unfold slave_score_value. unfold grp, vst in *.
    rewrite dassert_at_true by (rewrite Hg, map_length; now apply Nat.eqb_eq). cbn [obind].
    cbn [vs_score dpd_vscorer]. rewrite Hg. now apply score_ok.
  Qed.
End S.
