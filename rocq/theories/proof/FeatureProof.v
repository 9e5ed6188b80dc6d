(** Each feature's mixture holds exactly the rows of its groups and scores with them. *)
From Coq Require Import Permutation Reals Lra.
From Verif.spec Require Import GroupSpec SlaveSpec SystemSpec.
From Verif.model Require Import Base Packed Num VectorMath Component Slave SlaveRun System.
From Verif.proof Require Import BaseProof VectorProof PackedProof LoopProof GroupProof BBProof SlaveProof SlaveScore.
From stdpp Require Import gmap.
From Verif.proof Require Import DPDSlave.
Local Open Scope Z_scope.

Definition fine {W} (ok : W -> Prop) (data : list (list W)) : Prop :=
  List.Forall (List.Forall ok) data /\ Z.of_nat (length (concat data)) < 2 ^ 31.
Lemma fine_mid {W} (ok : W -> Prop) d1 xs d2 : fine ok (d1 ++ xs :: d2) -> List.Forall ok xs /\ short xs.
Proof.
  intros [H L]. split.
  - apply List.Forall_app in H as [_ H]. now inversion H.
  - rewrite concat_app, app_length in L. cbn [concat] in L. rewrite app_length in L. unfold short. lia.
Qed.
Lemma fine_in {W} (ok : W -> Prop) data xs : fine ok data -> In xs data -> List.Forall ok xs /\ short xs.
Proof. intros H Hi. apply in_split in Hi as (d1 & d2 & ->). eapply fine_mid, H. Qed.

Definition vop {W V} (pr : W -> V) (o : sop W) : sop V :=
  match o with SAddGroup => SAddGroup | SRemGroup i => SRemGroup i | SAdd i w => SAdd i (pr w) | SRem i w => SRem i (pr w) end.
Lemma taken_out_map {A B} (f : A -> B) i l a l' : taken_out i l a l' -> taken_out i (map f l) (f a) (map f l').
Proof.
  intros [k x|k x m z]; rewrite ?map_app; cbn [map]; rewrite ?map_app; cbn [map]; rewrite <- (map_length f k); constructor.
Qed.
Lemma sstep_map {W V} (pr : W -> V) data o data' : sstep data o data' ->
  sstep (map (map pr) data) (vop pr o) (map (map pr) data').
Proof.
  intros [d|i d xs d' Ho|d1 xs d2 v|d1 a v b d2]; cbn [vop]; rewrite ?map_app; cbn [map].
  - constructor.
  - econstructor. now apply taken_out_map, Ho.
  - rewrite <- (map_length (map pr) d1). constructor.
  - rewrite <- (map_length (map pr) d1), !map_app. cbn [map]. constructor.
Qed.
Lemma fine_map {W V} (pr : W -> V) (ok : W -> Prop) (okv : V -> Prop) data : (forall w, ok w -> okv (pr w)) ->
  fine ok data -> fine okv (map (map pr) data).
Proof.
  intros Hp [H L]. split.
  - apply List.Forall_map. eapply List.Forall_impl; [|exact H]. intros xs Hx. apply List.Forall_map.
    eapply List.Forall_impl; [|exact Hx]. exact Hp.
  - rewrite <- concat_map, map_length. exact L.
Qed.

Section Laws.
  Context {C : component}.
  Variables (dl : nat) (sh : shared_t C) (okv : value_t C -> Prop) (stat : list (value_t C) -> group_t C).
  Record laws : Prop := {
    la_init : c_init C sh = stat [];
    la_perm : forall l l', Permutation l l' -> stat l = stat l';
    la_add : forall l v, short (v :: l) -> List.Forall okv (v :: l) -> c_add C dl sh (stat l) v = Ok (stat (v :: l));
    la_rem : forall l v, short (v :: l) -> List.Forall okv (v :: l) -> c_rem C dl sh (stat (v :: l)) v = Ok (stat l) }.
  Hypothesis L : laws.

  Lemma laws_filled l : short l -> List.Forall okv l -> c_filled C dl sh l = Ok (stat l).
  Proof.
    intros Hs Ho. apply (filled_stat C dl sh stat (fun l => short l /\ List.Forall okv l)); [apply (la_init L)|apply (la_perm L)| | | |now split].
    - intros a b P [X Y]. split; [eapply short_perm; eauto|eapply Permutation_Forall; eauto].
    - intros v a [X Y]. split; [eapply short_tail; eauto|now inversion Y].
    - intros a v [X Y]. now apply (la_add L).
  Qed.

  Lemma sg_get_at (gs p : list (group_t C)) a q i : gs = p ++ a :: q -> length p = i -> sg_get dl gs i = Ok a.
  Proof. intros -> <-. apply sg_get_ok. rewrite nth_error_app2, Nat.sub_diag by lia. reflexivity. Qed.

  (** The mixture without caches. *)
  Context {F : Type} {N : Num F}.
  Variable gscore : nat -> shared_t C -> group_t C -> value_t C -> outcome F.
  Notation slow := (small_vscorer gscore).
  Lemma slow_step data (q : slave slow) o data' : sl_groups q = map stat data -> fine okv data -> fine okv data' ->
    sstep data o data' -> exists q', slave_run1 slow dl sh q o = Ok q' /\ sl_groups q' = map stat data'.
  Proof.
    intros Hg Hf Hf' Hst. destruct q as [gs t]. cbn [sl_groups] in Hg. subst gs.
    destruct Hst as [d|i d xs d' Ho|d1 xs d2 v|d1 a v b d2]; cbn [slave_run1].
    - unfold slave_add_group. cbn [sl_groups sl_vs vs_add_group vs_update_group small_vscorer obind]. unfold sg_add_group, packed_add.
      rewrite (sg_get_at _ (map stat d) (c_init C sh) []) by reflexivity. cbn [obind]. eexists. split; [reflexivity|]. cbn [sl_groups].
      rewrite map_app. cbn [map]. now rewrite (la_init L).
    - unfold slave_remove_group, sg_remove_group. cbn [sl_groups sl_vs vs_remove_group small_vscorer].
      rewrite (taken_out_packed _ dl _ _ _ _ Ho). cbn [obind]. eexists. split; reflexivity.
    - apply fine_mid in Hf' as [Hv Hs]. unfold slave_add_value, sg_add_value. cbn [sl_groups sl_vs vs_add_value small_vscorer].
      rewrite map_app. cbn [map]. rewrite (sg_get_at _ (map stat d1) (stat xs) (map stat d2)) by (try reflexivity; apply map_length).
      cbn [obind]. rewrite (la_add L) by assumption. cbn [obind]. rewrite vset_mid by apply map_length. cbn [obind].
      rewrite (sg_get_at _ (map stat d1) (stat (v :: xs)) (map stat d2)) by (try reflexivity; apply map_length).
      cbn [obind]. eexists. split; [reflexivity|]. cbn [sl_groups]. now rewrite map_app.
    - apply fine_mid in Hf as [Hv Hs]. pose proof (Permutation_sym (Permutation_middle a b v)) as P.
      unfold slave_remove_value, sg_remove_value. cbn [sl_groups sl_vs vs_remove_value small_vscorer].
      rewrite map_app. cbn [map]. rewrite (sg_get_at _ (map stat d1) (stat (a ++ v :: b)) (map stat d2)) by (try reflexivity; apply map_length).
      cbn [obind]. rewrite (la_perm L _ _ P). rewrite (la_rem L); [|eapply short_perm; eauto|eapply Permutation_Forall; eauto].
      cbn [obind]. rewrite vset_mid by apply map_length. cbn [obind].
      rewrite (sg_get_at _ (map stat d1) (stat (a ++ b)) (map stat d2)) by (try reflexivity; apply map_length).
      cbn [obind]. eexists. split; [reflexivity|]. cbn [sl_groups]. now rewrite map_app.
  Qed.
End Laws.

Section Follows.
  Context {W F : Type} {N : Num F}.
  Variables (dl : nat) (ok : W -> Prop).

  Record follows (f : feature W F) (Inv : list (list W) -> slave (ft_vs f) -> Prop) (pred : list W -> W -> F) : Prop := {
    fo_groups : forall data s, Inv data s -> fine ok data ->
      List.Forall2 (fun rows g => forall rows', Permutation rows rows' ->
        c_filled (ft_c f) dl (ft_sh f) (map (ft_val f) rows') = Ok g) data (sl_groups s);
    fo_init : forall k t, exists s, slave_init (ft_vs f) dl (ft_sh f)
        (mk_slave (repeat (c_init (ft_c f) (ft_sh f)) k) t) = Ok s /\ Inv (repeat [] k) s;
    fo_step : forall data s o data', Inv data s -> fine ok data -> fine ok data' -> sstep data o data' ->
      (forall i, o = SRemGroup i -> nth_error data i = Some []) ->
      exists s', slave_run1 (ft_vs f) dl (ft_sh f) s (vop (ft_val f) o) = Ok s' /\ Inv data' s';
    fo_score : forall data s w accum, Inv data s -> fine ok data -> ok w -> length accum = length data ->
      slave_score_value (ft_vs f) dl (ft_sh f) s (ft_val f w) accum = Ok (col_add accum (map (fun rows => pred rows w) data));
    fo_pred : forall rows w, short rows -> List.Forall ok rows -> ok w ->
      exists g, c_filled (ft_c f) dl (ft_sh f) (map (ft_val f) rows) = Ok g /\
        ft_score f dl (ft_sh f) g (ft_val f w) = Ok (pred rows w) }.

  Lemma forall2_map {A B} (P : A -> B -> Prop) (h : A -> B) l : (forall x, In x l -> P x (h x)) -> List.Forall2 P l (map h l).
  Proof. intro H. induction l as [|x l IH]; cbn [map]; constructor; [apply H; now left|]. apply IH. intros; apply H; now right. Qed.
  Lemma short_map {A B} (h : A -> B) l : short l -> short (map h l).
  Proof. unfold short. now rewrite map_length. Qed.
  Lemma map_repeat_nil {A B} (h : list A -> B) k : map h (repeat [] k) = repeat (h []) k.
  Proof. induction k; cbn [repeat map]; congruence. Qed.

  (** A feature whose value scorer has coherent caches. *)
  Lemma follows_coherent (C : component) (S : vscorer C F) gscore sh (pr : W -> value_t C) okv stat Wf okc cache fsc :
    laws dl sh okv stat -> coherent S dl sh Wf okc cache fsc -> (forall w, ok w -> okv (pr w) /\ okc (pr w)) ->
    (forall l w, short l -> List.Forall okv l -> ok w -> gscore dl sh (stat l) (pr w) = Ok (fsc (stat l) (pr w))) ->
    follows (mk_feature C S gscore sh pr) (fun data s => good S Wf cache s /\ sl_groups s = map (fun rows => stat (map pr rows)) data)
      (fun rows w => fsc (stat (map pr rows)) (pr w)).
  Proof.
    intros L H Ho Hs.
    assert (Hf : forall rows, List.Forall ok rows -> List.Forall okv (map pr rows)).
    { intros rows Hr. apply List.Forall_map. eapply List.Forall_impl; [|exact Hr]. intros w Hw. now apply Ho. }
    split; cbn [ft_c ft_vs ft_sh ft_val ft_score].
    - intros data s [_ ->] Hd. apply forall2_map. intros rows Hi rows' P. destruct (fine_in _ _ _ Hd Hi) as [Hk Hl].
      pose proof (Permutation_sym P) as P'.
      rewrite (laws_filled dl sh okv stat L).
      + f_equal. apply (la_perm _ _ _ _ L). apply Permutation_map, P'.
      + apply short_map. eapply short_perm; eauto.
      + apply Hf. eapply Permutation_Forall; eauto.
    - intros k t. eexists. split.
      + apply (init_good S dl sh Wf okc cache fsc H). apply List.Forall_forall. intros g Hg. apply repeat_spec in Hg. subst g. apply (co_init _ _ _ _ _ _ _ H).
      + split; [split|]; cbn [sl_groups sl_vs]; [|reflexivity|].
        * apply List.Forall_forall. intros g Hg. apply repeat_spec in Hg. subst g. apply (co_init _ _ _ _ _ _ _ H).
        * rewrite (map_repeat_nil (fun rows => stat (map pr rows))). cbn [map]. now rewrite (la_init _ _ _ _ L).
    - intros data s o data' [Hgd Hg] Hd Hd' Hst _.
      pose proof (fine_map pr ok okv data (fun w Hw => proj1 (Ho w Hw)) Hd) as Fd.
      pose proof (fine_map pr ok okv data' (fun w Hw => proj1 (Ho w Hw)) Hd') as Fd'.
      rewrite <- (map_map (map pr) stat) in Hg.
      destruct (slow_step dl sh okv stat L gscore (map (map pr) data) (mk_slave (S:=small_vscorer gscore) (sl_groups s) tt) (vop pr o) (map (map pr) data'))
        as (q' & E & Gq); [exact Hg|exact Fd|exact Fd'|now apply sstep_map|].
      pose proof (step_twin S dl sh Wf okc cache fsc H gscore s (mk_slave (S:=small_vscorer gscore) (sl_groups s) tt) (vop pr o)) as T.
      rewrite E in T. destruct (slave_run1 S dl sh s (vop pr o)) as [s'| |]; cbn [agrees] in T;
        (specialize (T (conj Hgd eq_refl))); [|contradiction|contradiction].
      destruct T as [T1 T2]. exists s'. split; [reflexivity|]. split; [exact T1|]. rewrite T2, Gq. apply map_map.
    - intros data s w accum [Hgd Hg] Hd Hw Hl. rewrite (good_score S dl sh Wf okc cache fsc H).
      + rewrite Hg, map_map. reflexivity.
      + exact Hgd. + now apply Ho. + now rewrite Hg, map_length.
    - intros rows w Hr Hk Hw. eexists. split; [apply (laws_filled dl sh okv stat L); [now apply short_map|now apply Hf]|].
      apply Hs; [now apply short_map|now apply Hf|exact Hw].
  Qed.

  (** A feature without caches (SmallMixture). *)
  Lemma follows_small (C : component) gscore sh (pr : W -> value_t C) okv stat (fsc : list (value_t C) -> value_t C -> F) :
    laws dl sh okv stat -> (forall w, ok w -> okv (pr w)) ->
    (forall l w, short l -> List.Forall okv l -> ok w -> gscore dl sh (stat l) (pr w) = Ok (fsc l (pr w))) ->
    follows (mk_feature C (small_vscorer gscore) gscore sh pr) (fun data s => sl_groups s = map (fun rows => stat (map pr rows)) data)
      (fun rows w => fsc (map pr rows) (pr w)).
  Proof.
    intros L Ho Hs.
    assert (Hf : forall rows, List.Forall ok rows -> List.Forall okv (map pr rows)).
    { intros rows Hr. apply List.Forall_map. eapply List.Forall_impl; [|exact Hr]. exact Ho. }
    split; cbn [ft_c ft_vs ft_sh ft_val ft_score].
    - intros data s -> Hd. apply forall2_map. intros rows Hi rows' P. destruct (fine_in _ _ _ Hd Hi) as [Hk Hl].
      pose proof (Permutation_sym P) as P'.
      rewrite (laws_filled dl sh okv stat L).
      + f_equal. apply (la_perm _ _ _ _ L). apply Permutation_map, P'.
      + apply short_map. eapply short_perm; eauto.
      + apply Hf. eapply Permutation_Forall; eauto.
    - intros k t. eexists. split; [reflexivity|]. cbn [sl_groups]. rewrite (map_repeat_nil (fun rows => stat (map pr rows))). cbn [map]. now rewrite (la_init _ _ _ _ L).
    - intros data s o data' Hg Hd Hd' Hst _. rewrite <- (map_map (map pr) stat) in Hg.
      destruct (slow_step dl sh okv stat L gscore (map (map pr) data) s (vop pr o) (map (map pr) data'))
        as (q' & E & Gq); [exact Hg|now apply (fine_map pr ok)|now apply (fine_map pr ok)|now apply sstep_map|].
      exists q'. split; [exact E|]. rewrite Gq. apply map_map.
    - intros data s w accum Hg Hd Hw Hl.
      set (T := small_vscorer gscore) in *. unfold slave_score_value. cbn [vs_score T small_vscorer]. unfold small_score.
      rewrite !dassert_at_true by (apply Nat.eqb_eq; now rewrite Hg, map_length). cbn [obind].
      rewrite Hg, map_length, <- Hl. apply accum_loop; [exact Hl|].
      intros i x rows Hx Hr. rewrite (vget_map _ _ _ _ Hr). cbn [obind]. destruct (fine_in _ _ _ Hd (nth_error_In _ _ Hr)) as [Hk Hs'].
      rewrite Hs; [reflexivity|now apply short_map|now apply Hf|exact Hw].
    - intros rows w Hr Hk Hw. eexists. split; [apply (laws_filled dl sh okv stat L); [now apply short_map|now apply Hf]|].
      apply Hs; [now apply short_map|now apply Hf|exact Hw].
  Qed.
End Follows.
