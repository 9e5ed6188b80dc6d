(** Driver, features and id tracker stay aligned. *)
From Coq Require Import Permutation Reals Lra.
From Verif.spec Require Import DriverSpec TrackerSpec GroupSpec SlaveSpec SystemSpec.
From Verif.model Require Import Base Packed Num Driver DriverRun PitmanYor PitmanYorRun IdTracker TrackerRun Component Slave SlaveRun System.
From Verif.proof Require Import BaseProof VectorProof PackedProof LoopProof SlaveProof DriverProof PitmanYorProof TrackerProof.
From stdpp Require Import gmap.
From Verif.proof Require Import FeatureProof.
Local Open Scope Z_scope.

Lemma perm_mid {A} (l1 l2 : list A) x r : Permutation (l1 ++ x :: l2) r ->
  exists r1 r2, r = r1 ++ x :: r2 /\ Permutation (l1 ++ l2) (r1 ++ r2).
Proof.
  intro P. assert (Hi : In x r) by (eapply Permutation_in; [exact P|]; apply in_or_app; right; now left).
  apply in_split in Hi as (r1 & r2 & ->). exists r1, r2. split; [reflexivity|]. eapply Permutation_app_inv, P.
Qed.

Section S.
  Context {W F : Type} {N : Num F}.
  Variables (dl : nat) (ok : W -> Prop).
  Notation fs := (fstate W F).

  (** A feature's mixture holds the rows of [data]. *)
  Definition holds (data : list (list W)) (x : fs) : Prop :=
    exists Inv pred, follows dl ok (fs_f x) Inv pred /\ Inv data (fs_s x).

  Lemma each_ok (f : fs -> outcome fs) (P Q : fs -> Prop) l :
    (forall x, P x -> exists x', f x = Ok x' /\ Q x' /\ fs_f x' = fs_f x) -> List.Forall P l ->
    exists l', each f l = Ok l' /\ List.Forall Q l' /\ map fs_f l' = map fs_f l.
  Proof.
    intros Hf. induction 1 as [|x l Hx Hl IH]; cbn [each]; [exists []; auto|].
    destruct (Hf x Hx) as (x' & -> & Hq & Hm). destruct IH as (l' & -> & Hq' & Hm'). cbn [obind].
    exists (x' :: l'). split; [reflexivity|]. split; [now constructor|]. cbn [map]. congruence.
  Qed.
  Lemma feat_step data o data' k : fine ok data -> fine ok data' -> sstep data o data' ->
    (forall i, o = SRemGroup i -> nth_error data i = Some []) ->
    (forall f s, k f s = slave_run1 (ft_vs f) dl (ft_sh f) s (vop (ft_val f) o)) ->
    forall x, holds data x -> exists x', on_slave k x = Ok x' /\ holds data' x' /\ fs_f x' = fs_f x.
  Proof.
    intros Fd Fd' Hst Hd Hk [f s] (Inv & pred & Hf & Hi). cbn [fs_f fs_s] in *.
    destruct (fo_step _ _ _ _ _ Hf data s o data' Hi Fd Fd' Hst Hd) as (s' & E & Hi').
    unfold on_slave. cbn [fs_f fs_s]. rewrite Hk, E. cbn [obind]. eexists. split; [reflexivity|]. split; [|reflexivity].
    exists Inv, pred. now split.
  Qed.

  Definition csize (p : Z * list W) : Z := Z.of_nat (length (snd p)).
  Record sinv (m : py F) (feats : list (feature W F)) (s : sys W F) (L : list (Z * list W)) (n : Z) : Prop := {
    si_py : pyinv m (sy_py s);
    si_counts : counts (cdriver (sy_py s)) = map csize L;
    si_track : tinv (sy_track s) (map fst L) n;
    si_feats : List.Forall (holds (map snd L)) (sy_feats s);
    si_same : map fs_f (sy_feats s) = feats;
    si_ok : world_ok ok (L, n) }.

  Lemma rows_perm (L L' : list (Z * list W)) : Permutation L L' -> rows_in L = rows_in L'.
  Proof.
    intro P. unfold rows_in. apply Permutation_length. induction P as [|x L L' P IH|x y L|L1 L2 L3 P1 IH1 P2 IH2]; cbn [map concat]; auto.
    - now apply Permutation_app_head.
    - rewrite !app_assoc. apply Permutation_app_tail, Permutation_app_comm.
    - now transitivity (concat (map snd L2)).
  Qed.
  Lemma ok_perm L L' n : Permutation L L' -> world_ok ok (L, n) -> world_ok ok (L', n).
  Proof.
    intros P (A & B & C). cbn [fst snd] in *. split; [|split]; cbn [fst snd]; [eapply Permutation_Forall; eauto|now rewrite <- (rows_perm _ _ P)|exact C].
  Qed.
  Lemma ok_fine L n : world_ok ok (L, n) -> fine ok (map snd L).
  Proof. intros (A & B & _). split; [now apply List.Forall_map|exact B]. Qed.
  Lemma sum_rows (L : list (Z * list W)) : sum_sizes (map csize L) = Z.of_nat (rows_in L).
  Proof.
    unfold rows_in. induction L as [|p L IH]; cbn [map sum_sizes concat]; [reflexivity|]. rewrite IH, app_length. unfold csize. lia.
  Qed.

  (** Which id a live group has. *)
  Lemma gid_packed m feats s L1 g xs L2 n : sinv m feats s (L1 ++ (g, xs) :: L2) n ->
    global_to_packed dl (sy_track s) g = Ok (Z.of_nat (length L1)) /\ packed_to_global dl (sy_track s) (Z.of_nat (length L1)) = Ok g.
  Proof.
    intro H. destruct (inv_obs dl _ _ _ (si_track _ _ _ _ _ H)) as (_ & _ & B & _).
    destruct (B (Z.of_nat (length L1)) g) as [X Y]; [lia| |now split].
    rewrite Nat2Z.id, map_app. cbn [map]. rewrite <- (map_length fst L1), nth_error_app2, Nat.sub_diag by lia. reflexivity.
  Qed.
  Lemma empty_at (d1 d2 : list (list W)) : nth_error (d1 ++ [] :: d2) (length d1) = Some [].
  Proof. rewrite nth_error_app2, Nat.sub_diag by lia. reflexivity. Qed.

  Lemma step_add_more m feats s L1 g xs L2 n w : sinv m feats s (L1 ++ (g, xs) :: L2) n -> xs <> [] ->
    world_ok ok (L1 ++ (g, w :: xs) :: L2, n) ->
    exists s', sys_add_value dl m s (length L1) w = Ok s' /\ sinv m feats s' (L1 ++ (g, w :: xs) :: L2) n.
  Proof.
    intros H Hx Hok. pose proof (ok_fine _ _ (si_ok _ _ _ _ _ H)) as Fd. pose proof (ok_fine _ _ Hok) as Fd'.
    pose proof (si_counts _ _ _ _ _ H) as Hc. rewrite map_app in Hc. cbn [map] in Hc.
    assert (Hs : dstep (counts (cdriver (sy_py s))) (DAdd (length L1) 1) (map csize (L1 ++ (g, w :: xs) :: L2)) false).
    { rewrite Hc, map_app. cbn [map]. rewrite <- (map_length csize L1).
      replace (csize (g, w :: xs)) with (csize (g, xs) + 1) by (unfold csize; cbn [snd length]; lia).
      constructor; [|lia]. unfold csize. destruct xs; [congruence|]. cbn [snd length]. lia. }
    destruct (py_step_ok dl m (sy_py s) _ _ _ (si_py _ _ _ _ _ H) Hs) as (c1 & E & I1 & C1).
    { rewrite sum_rows. apply Hok. }
    cbn [pyrun1] in E. unfold sys_add_value. rewrite E. cbn [obind fst snd].
    rewrite !map_app in *. cbn [map snd] in *.
    assert (St : sstep (map snd L1 ++ xs :: map snd L2) (SAdd (length L1) w) (map snd L1 ++ (w :: xs) :: map snd L2)).
    { rewrite <- (map_length snd L1). constructor. }
    pose proof (si_feats _ _ _ _ _ H) as Hfs. rewrite map_app in Hfs. cbn [map snd] in Hfs.
    destruct (each_ok (feat_add_value dl (length L1) w) _ _ _ (feat_step _ _ _ _ Fd Fd' St ltac:(discriminate) (fun f t => eq_refl)) Hfs)
      as (l' & E' & Q & M).
    rewrite E'. cbn [obind]. eexists. split; [reflexivity|]. split; cbn [sy_py sy_feats sy_track]; auto.
    - now rewrite map_app.
    - pose proof (si_track _ _ _ _ _ H) as T. now rewrite map_app in *.
    - now rewrite map_app.
    - rewrite M. apply (si_same _ _ _ _ _ H).
  Qed.

  Lemma step_add_first m feats s L1 g L2 n w : sinv m feats s (L1 ++ (g, []) :: L2) n ->
    world_ok ok (L1 ++ (g, [w]) :: L2 ++ [(n, [])], n + 1) ->
    exists s', sys_add_value dl m s (length L1) w = Ok s' /\ sinv m feats s' (L1 ++ (g, [w]) :: L2 ++ [(n, [])]) (n + 1).
  Proof.
    intros H Hok. pose proof (ok_fine _ _ (si_ok _ _ _ _ _ H)) as Fd. pose proof (ok_fine _ _ Hok) as Fd'.
    pose proof (si_counts _ _ _ _ _ H) as Hc. rewrite map_app in Hc. cbn [map] in Hc. change (csize (g, [])) with 0 in Hc.
    assert (Hs : dstep (counts (cdriver (sy_py s))) (DAdd (length L1) 1) (map csize (L1 ++ (g, [w]) :: L2 ++ [(n, [])])) true).
    { rewrite Hc, map_app. cbn [map]. rewrite map_app. cbn [map]. change (csize (g, [w])) with 1. change (csize (n, [])) with 0.
      rewrite <- (map_length csize L1). constructor. lia. }
    destruct (py_step_ok dl m (sy_py s) _ _ _ (si_py _ _ _ _ _ H) Hs) as (c1 & E & I1 & C1).
    { rewrite sum_rows. apply Hok. }
    cbn [pyrun1] in E. unfold sys_add_value. rewrite E. cbn [obind fst snd].
    pose proof (si_feats _ _ _ _ _ H) as Hfs. rewrite map_app in *. cbn [map snd] in *. rewrite map_app in *. cbn [map snd] in *.
    assert (St : sstep (map snd L1 ++ [] :: map snd L2) (SAdd (length L1) w) (map snd L1 ++ [w] :: map snd L2)).
    { rewrite <- (map_length snd L1). constructor. }
    assert (St2 : sstep (map snd L1 ++ [w] :: map snd L2) SAddGroup (map snd L1 ++ [w] :: map snd L2 ++ [[]])).
    { replace (map snd L1 ++ [w] :: map snd L2 ++ [[]]) with ((map snd L1 ++ [w] :: map snd L2) ++ [[]]) by now rewrite <- app_assoc. constructor. }
    assert (Fm : fine ok (map snd L1 ++ [w] :: map snd L2)).
    { replace (map snd L1 ++ [w] :: map snd L2 ++ [[]]) with ((map snd L1 ++ [w] :: map snd L2) ++ [[]]) in Fd' by now rewrite <- app_assoc.
      destruct Fd' as [A B]. split; [now apply List.Forall_app in A|]. rewrite concat_app in B. cbn [concat] in B. now rewrite app_nil_r in B. }
    destruct (each_ok (feat_add_value dl (length L1) w) _ _ _ (feat_step _ _ _ _ Fd Fm St ltac:(discriminate) (fun f t => eq_refl)) Hfs)
      as (l' & E' & Q & M).
    rewrite E'. cbn [obind].
    destruct (each_ok (feat_add_group dl) _ _ _ (feat_step _ _ _ _ Fm Fd' St2 ltac:(discriminate) (fun f t => eq_refl)) Q)
      as (l2 & E2 & Q2 & M2).
    rewrite E2. cbn [obind]. eexists. split; [reflexivity|]. split; cbn [sy_py sy_feats sy_track]; auto.
    - rewrite C1, !map_app. cbn [map]. now rewrite map_app.
    - pose proof (si_track _ _ _ _ _ H) as T. rewrite map_app in *. cbn [map fst] in *. rewrite map_app. cbn [map fst].
      replace (map fst L1 ++ g :: map fst L2 ++ [n]) with ((map fst L1 ++ g :: map fst L2) ++ [n]) by now rewrite <- app_assoc.
      apply step_add; [exact T|]. destruct Hok as (_ & _ & X). cbn [snd] in X. lia.
    - rewrite map_app. cbn [map snd]. now rewrite map_app.
    - rewrite M2, M. apply (si_same _ _ _ _ _ H).
  Qed.

  Lemma step_rem_some m feats s L1 g a w b L2 n : sinv m feats s (L1 ++ (g, a ++ w :: b) :: L2) n -> a ++ b <> [] ->
    world_ok ok (L1 ++ (g, a ++ b) :: L2, n) ->
    exists s', sys_remove_value dl m s (length L1) w = Ok s' /\ sinv m feats s' (L1 ++ (g, a ++ b) :: L2) n.
  Proof.
    intros H Hx Hok. pose proof (ok_fine _ _ (si_ok _ _ _ _ _ H)) as Fd. pose proof (ok_fine _ _ Hok) as Fd'.
    pose proof (si_counts _ _ _ _ _ H) as Hc. rewrite map_app in Hc. cbn [map] in Hc.
    assert (Hs : dstep (counts (cdriver (sy_py s))) (DRem (length L1) 1) (map csize (L1 ++ (g, a ++ b) :: L2)) false).
    { rewrite Hc, map_app. cbn [map]. rewrite <- (map_length csize L1).
      replace (csize (g, a ++ b)) with (csize (g, a ++ w :: b) - 1) by (unfold csize; cbn [snd]; rewrite !app_length; cbn [length]; lia).
      constructor; [lia|]. unfold csize. cbn [snd]. rewrite app_length. cbn [length].
      assert (length (a ++ b) <> 0%nat) by (destruct (a ++ b); [congruence|cbn; lia]). rewrite app_length in *. lia. }
    destruct (py_step_ok dl m (sy_py s) _ _ _ (si_py _ _ _ _ _ H) Hs) as (c1 & E & I1 & C1).
    { rewrite sum_rows. apply Hok. }
    cbn [pyrun1] in E. unfold sys_remove_value. rewrite E. cbn [obind fst snd].
    pose proof (si_feats _ _ _ _ _ H) as Hfs. rewrite map_app in *. cbn [map snd] in *.
    assert (St : sstep (map snd L1 ++ (a ++ w :: b) :: map snd L2) (SRem (length L1) w) (map snd L1 ++ (a ++ b) :: map snd L2)).
    { rewrite <- (map_length snd L1). constructor. }
    destruct (each_ok (feat_remove_value dl (length L1) w) _ _ _ (feat_step _ _ _ _ Fd Fd' St ltac:(discriminate) (fun f t => eq_refl)) Hfs)
      as (l' & E' & Q & M).
    rewrite E'. cbn [obind]. eexists. split; [reflexivity|]. split; cbn [sy_py sy_feats sy_track]; auto.
    - now rewrite C1, !map_app.
    - pose proof (si_track _ _ _ _ _ H) as T. now rewrite map_app in *.
    - now rewrite map_app.
    - rewrite M. apply (si_same _ _ _ _ _ H).
  Qed.

  (** The last group moves to the freed position. *)
  Lemma step_rem_last m feats s L1 g w L2 n : sinv m feats s (L1 ++ (g, [w]) :: L2) n -> world_ok ok (L1 ++ L2, n) ->
    exists s' L', sys_remove_value dl m s (length L1) w = Ok s' /\ sinv m feats s' L' n /\ Permutation (L1 ++ L2) L'.
  Proof.
    intros H Hok. pose proof (ok_fine _ _ (si_ok _ _ _ _ _ H)) as Fd.
    pose proof (si_counts _ _ _ _ _ H) as Hc. rewrite map_app in Hc. cbn [map] in Hc. change (csize (g, [w])) with 1 in Hc.
    pose proof (si_feats _ _ _ _ _ H) as Hfs. rewrite map_app in Hfs, Fd. cbn [map snd] in Hfs, Fd.
    pose proof (si_track _ _ _ _ _ H) as T. rewrite map_app in T. cbn [map fst] in T.
    assert (X : exists L', Permutation (L1 ++ L2) L' /\
      dstep (counts (cdriver (sy_py s))) (DRem (length L1) 1) (map csize L') true /\
      taken_out (length L1) (map snd L1 ++ [] :: map snd L2) [] (map snd L') /\
      tstep (map fst L1 ++ g :: map fst L2, n) (TRem (Z.of_nat (length L1))) (map fst L', n)).
    { destruct L2 as [|z L2 _] using rev_ind.
      - exists L1. rewrite app_nil_r. split; [reflexivity|]. rewrite Hc. cbn [map].
        split; [rewrite <- (map_length csize L1); now constructor|].
        split; [rewrite <- (map_length snd L1) at 1; constructor|rewrite <- (map_length fst L1); constructor].
      - exists (L1 ++ z :: L2). split; [rewrite app_assoc; symmetry; rewrite <- Permutation_middle; apply Permutation_cons_append|].
        rewrite Hc, !map_app. cbn [map].
        split; [rewrite <- (map_length csize L1); now constructor|].
        split; [rewrite <- (map_length snd L1) at 1; constructor|rewrite <- (map_length fst L1); constructor]. }
    destruct X as (L' & P & Hs & Ho & Ht).
    pose proof (ok_perm _ _ _ P Hok) as Hok'. pose proof (ok_fine _ _ Hok') as Fd'.
    destruct (py_step_ok dl m (sy_py s) _ _ _ (si_py _ _ _ _ _ H) Hs) as (c1 & E & I1 & C1).
    { rewrite sum_rows. apply Hok'. }
    cbn [pyrun1] in E. unfold sys_remove_value. rewrite E. cbn [obind fst snd].
    assert (St : sstep (map snd L1 ++ [w] :: map snd L2) (SRem (length L1) w) (map snd L1 ++ [] :: map snd L2)).
    { rewrite <- (map_length snd L1). exact (ss_rem (map snd L1) [] w [] (map snd L2)). }
    assert (Fm : fine ok (map snd L1 ++ [] :: map snd L2)).
    { destruct Fd as [A B]. split.
      - apply List.Forall_app in A as [A1 A2]. apply List.Forall_app. split; [exact A1|]. inversion A2; subst. now constructor.
      - rewrite concat_app, app_length in *. cbn [concat] in *. rewrite app_length in *. cbn [length] in *. lia. }
    destruct (each_ok (feat_remove_value dl (length L1) w) _ _ _ (feat_step _ _ _ _ Fd Fm St ltac:(discriminate) (fun f t => eq_refl)) Hfs)
      as (l' & E' & Q & M).
    rewrite E'. cbn [obind].
    assert (St2 : sstep (map snd L1 ++ [] :: map snd L2) (SRemGroup (length L1)) (map snd L')) by (econstructor; exact Ho).
    assert (Hd : forall i, SRemGroup (V:=W) (length L1) = SRemGroup i -> nth_error (map snd L1 ++ [] :: map snd L2) i = Some []).
    { intros i Ei. injection Ei as <-. rewrite <- (map_length snd L1). apply empty_at. }
    destruct (each_ok (feat_remove_group dl (length L1)) _ _ _ (feat_step _ _ _ _ Fm Fd' St2 Hd (fun f t => eq_refl)) Q)
      as (l2 & E2 & Q2 & M2).
    rewrite E2. cbn [obind].
    destruct (tstep_ok dl _ _ _ _ _ _ T Ht) as (t' & Et & T'). { destruct Hok as (_ & _ & B). exact B. }
    cbn [trun1] in Et. rewrite Et. cbn [obind]. exists (mk_sys c1 l2 t'), L'. split; [reflexivity|]. split; [|exact P].
    split; cbn [sy_py sy_feats sy_track]; auto. rewrite M2, M. apply (si_same _ _ _ _ _ H).
  Qed.

  Lemma step_world m feats s L live n o live' n' : sinv m feats s L n -> Permutation live L ->
    wstep (live, n) o (live', n') -> world_ok ok (live', n') ->
    exists s' L', sys_run1 dl m s o = Ok s' /\ sinv m feats s' L' n' /\ Permutation live' L'.
  Proof.
    intros H P Hst Hok. inversion Hst as [pre g x xs post k w|pre g post k w|pre g a w b post k Hab|pre g w post k]; subst; cbn [sys_run1].
    - apply perm_mid in P as (L1 & L2 & -> & P). destruct (gid_packed _ _ _ _ _ _ _ _ H) as [G _]. rewrite G. cbn [obind]. rewrite Nat2Z.id.
      assert (P' : Permutation (pre ++ (g, w :: x :: xs) :: post) (L1 ++ (g, w :: x :: xs) :: L2)).
      { rewrite <- !Permutation_middle. now apply perm_skip. }
      destruct (step_add_more m feats s L1 g (x :: xs) L2 n' w H ltac:(discriminate) (ok_perm _ _ _ P' Hok)) as (s' & E & I).
      exists s'. eexists. split; [exact E|]. split; [exact I|exact P'].
    - apply perm_mid in P as (L1 & L2 & -> & P). destruct (gid_packed _ _ _ _ _ _ _ _ H) as [G _]. rewrite G. cbn [obind]. rewrite Nat2Z.id.
      assert (P' : Permutation (pre ++ (g, [w]) :: post ++ [(n, [])]) (L1 ++ (g, [w]) :: L2 ++ [(n, [])])).
      { rewrite <- (Permutation_middle pre), <- (Permutation_middle L1). apply perm_skip. rewrite !app_assoc. now apply Permutation_app_tail. }
      destruct (step_add_first m feats s L1 g L2 n w H (ok_perm _ _ _ P' Hok)) as (s' & E & I).
      exists s'. eexists. split; [exact E|]. split; [exact I|exact P'].
    - apply perm_mid in P as (L1 & L2 & -> & P). destruct (gid_packed _ _ _ _ _ _ _ _ H) as [G _]. rewrite G. cbn [obind]. rewrite Nat2Z.id.
      assert (P' : Permutation (pre ++ (g, a ++ b) :: post) (L1 ++ (g, a ++ b) :: L2)).
      { rewrite <- !Permutation_middle. now apply perm_skip. }
      destruct (step_rem_some m feats s L1 g a w b L2 n' H Hab (ok_perm _ _ _ P' Hok)) as (s' & E & I).
      exists s'. eexists. split; [exact E|]. split; [exact I|exact P'].
    - apply perm_mid in P as (L1 & L2 & -> & P). destruct (gid_packed _ _ _ _ _ _ _ _ H) as [G _]. rewrite G. cbn [obind]. rewrite Nat2Z.id.
      destruct (step_rem_last m feats s L1 g w L2 n' H (ok_perm _ _ _ P Hok)) as (s' & L' & E & I & P').
      exists s', L'. split; [exact E|]. split; [exact I|]. now transitivity (L1 ++ L2).
  Qed.

  Lemma run_world m feats ops : forall s L live n live' n', sinv m feats s L n -> Permutation live L ->
    whistory ok (live, n) ops (live', n') ->
    exists s' L', sys_run dl m s ops = Ok s' /\ sinv m feats s' L' n' /\ Permutation live' L'.
  Proof.
    induction ops as [|o ops IH]; intros s L live n live' n' H P Hh; inversion Hh as [|? ? [live1 n1] ? ? Hst Hok Hr]; subst; cbn [sys_run].
    - exists s, L. auto.
    - destruct (step_world m feats s L live n o live1 n1 H P Hst Hok) as (s1 & L1 & E & I & P1). rewrite E. cbn [obind].
      now apply (IH s1 L1 live1 n1).
  Qed.

  Lemma new_perm k : map fst (fst (new_world (W:=W) k)) = first_ids k /\ map snd (fst (new_world (W:=W) k)) = repeat [] k /\
    map csize (fst (new_world (W:=W) k)) = repeat 0 k.
  Proof.
    unfold new_world, first_ids. cbn [fst]. rewrite !map_map. cbn [fst snd]. split; [reflexivity|].
    split; (etransitivity; [|apply (f_equal (repeat _)), (seq_length k 0)]); induction (seq 0 k) as [|i l IH]; cbn [map length repeat]; f_equal; auto.
  Qed.
  Lemma sys_init_ok m old k (feats : list fs) : (1 <= k)%nat -> Z.of_nat k <= 2 ^ 32 ->
    List.Forall (fun x => exists Inv pred, follows dl ok (fs_f x) Inv pred) feats ->
    exists s, sys_init dl m old feats k = Ok s /\ sinv m (map fs_f feats) s (fst (new_world k)) (Z.of_nat k).
  Proof.
    intros Hk Hk2 Hf. destruct (new_perm k) as (N1 & N2 & N3).
    destruct (py_init_ok dl m old (repeat 0 k)) as (c & E & I & C).
    { assert (S0 : sum_sizes (repeat 0 k) = 0) by (clear; induction k; cbn [repeat sum_sizes]; lia).
      split; [|split].
      - apply List.Forall_forall. intros x Hx. apply repeat_spec in Hx. lia.
      - destruct k; [lia|]. now left.
      - lia. }
    unfold sys_init. replace (1 <=? k)%nat with true by (symmetry; apply Nat.leb_le; lia). cbn [dassert obind]. rewrite E. cbn [obind].
    destruct (each_ok (feat_init dl k) (fun x => exists Inv pred, follows dl ok (fs_f x) Inv pred) (holds (repeat [] k)) feats) as (l & E2 & Q & M).
    { intros [f s] (Inv & pred & H). cbn [fs_f] in *. unfold feat_init, on_slave. cbn [fs_f fs_s].
      destruct (fo_init _ _ _ _ _ H k (sl_vs s)) as (s' & E' & Hi). rewrite E'. cbn [obind]. eexists. split; [reflexivity|]. split; [|reflexivity].
      exists Inv, pred. now split. }
    { exact Hf. }
    rewrite E2. cbn [obind]. eexists. split; [reflexivity|]. split; cbn [sy_py sy_feats sy_track]; auto.
    - now rewrite C, N3.
    - rewrite N1. now apply init_inv.
    - now rewrite N2.
    - unfold world_ok. cbn [fst snd]. split; [|split]; [| |exact Hk2].
      + apply List.Forall_forall. intros p Hp. unfold new_world in Hp. cbn [fst] in Hp. apply in_map_iff in Hp as (i & <- & _). constructor.
      + unfold rows_in. rewrite N2. replace (concat (repeat [] k)) with (@nil W); [cbn; lia|]. clear. induction k; cbn [repeat concat]; auto.
  Qed.

  (** Scores. *)
  Lemma feats_score_ok data w : fine ok data -> ok w -> forall feats scores, List.Forall (holds data) feats ->
    length scores = length data ->
    exists r, feats_score dl feats w scores = Ok r /\ length r = length data /\
      forall i rows x, nth_error data i = Some rows -> nth_error scores i = Some x ->
      exists xs, List.Forall2 (fun (f : fs) y => exists g, nth_error (sl_groups (fs_s f)) i = Some g /\
            c_filled (ft_c (fs_f f)) dl (ft_sh (fs_f f)) (map (ft_val (fs_f f)) rows) = Ok g /\
            ft_score (fs_f f) dl (ft_sh (fs_f f)) g (ft_val (fs_f f) w) = Ok y) feats xs /\
        nth_error r i = Some (fold_left nadd xs x).
  Proof.
    intros Fd Hw. induction feats as [|f feats IH]; intros scores Hf Hl; cbn [feats_score].
    - exists scores. split; [reflexivity|]. split; [exact Hl|]. intros i rows x _ Hx. exists []. split; [constructor|exact Hx].
    - inversion Hf as [|? ? (Inv & pred & H & Hi) Hf']; subst.
      rewrite (fo_score _ _ _ _ _ H data (fs_s f) w scores Hi Fd Hw Hl). cbn [obind].
      destruct (IH (col_add scores (map (fun rows => pred rows w) data)) Hf') as (r & E & Lr & Hr).
      { rewrite col_add_length; [exact Hl|]. now rewrite map_length, Hl. }
      exists r. split; [exact E|]. split; [exact Lr|]. intros i rows x Hd Hx.
      destruct (Hr i rows (nadd x (pred rows w)) Hd) as (xs & F2 & En).
      { apply nth_col_add; [exact Hx|]. exact (map_nth_error (fun rows => pred rows w) _ _ Hd). }
      exists (pred rows w :: xs). split; [|exact En]. constructor; [|exact F2].
      destruct (fine_in _ _ _ Fd (nth_error_In _ _ Hd)) as [Hk Hs].
      destruct (fo_pred _ _ _ _ _ H rows w Hs Hk Hw) as (g & Eg & Es). exists g. split; [|now split].
      pose proof (fo_groups _ _ _ _ _ H data (fs_s f) Hi Fd) as G2.
      assert (X : forall (A B : Type) (P : A -> B -> Prop) l l' i a, List.Forall2 P l l' -> nth_error l i = Some a -> exists b, nth_error l' i = Some b /\ P a b).
      { clear. intros A B P l l' i a H. revert i. induction H as [|u v l l' Hu H IH]; intros [|i] E; cbn in E |- *; try discriminate.
        - injection E as <-. eauto. - now apply IH. }
      destruct (X _ _ _ _ _ i rows G2 Hd) as (g' & Eg' & Hg'). rewrite (Hg' rows (Permutation_refl _)) in Eg. now injection Eg as <-.
  Qed.
End S.
