(** The value scorer of the Dirichlet-process-discrete mixture. *)
From Coq Require Import Permutation.
From Verif.spec Require Import GroupSpec SlaveSpec.
From Verif.model Require Import Base Packed Num VectorMath Component Slave SlaveRun Sparse DPD.
From Verif.proof Require Import BaseProof VectorProof PackedProof LoopProof GroupProof SlaveProof.
From stdpp Require Import gmap.
From Verif.proof Require Import DPDProof DPDScore.
Local Open Scope Z_scope.

Lemma vget_mid {A} (p : list A) a q i : length p = i -> vget (p ++ a :: q) i = Ok a.
Proof. intros <-. apply vget_app. Qed.
Lemma vset_mid {A} (p : list A) a q i b : length p = i -> vset (p ++ a :: q) i b = Ok (p ++ b :: q).
Proof. intros <-. apply vset_app. Qed.
Lemma taken_out_packed {A B} (f : A -> B) dl i l a l' : taken_out i l a l' -> packed_remove dl (map f l) i = Ok (map f l').
Proof.
  intros [k x|k x m z]; rewrite ?map_app; cbn [map]; rewrite ?map_app; cbn [map]; rewrite <- (map_length f k).
  - apply packed_remove_last.
  - apply packed_remove_inner.
Qed.
Lemma taken_out_perm {A} i (l : list A) a l' : taken_out i l a l' -> Permutation l (a :: l').
Proof.
  intros [k x|k x m z].
  - apply Permutation_sym, Permutation_cons_append.
  - rewrite <- Permutation_middle. apply perm_skip, Permutation_app_head. apply Permutation_sym, Permutation_cons_append.
Qed.
Lemma size_le {V W} (m : gmap Z V) (m' : gmap Z W) : (forall k, m !! k <> None -> m' !! k <> None) -> (size m <= size m')%nat.
Proof.
  intro H. change (size m) with (length (map_to_list m)). change (size m') with (length (map_to_list m')).
  rewrite <- (map_length fst), <- (map_length fst (map_to_list m')). apply NoDup_incl_length; [apply (nodup_keys m), Permutation_refl|].
  intros k Hk. apply (in_keys m' _ _ (Permutation_refl _)), H, (in_keys m _ _ (Permutation_refl _)), Hk.
Qed.
Lemma size_eq_keys {V W} (m : gmap Z V) (m' : gmap Z W) : (forall k, m !! k <> None -> m' !! k <> None) -> size m' = size m ->
  forall k, m' !! k <> None -> m !! k <> None.
Proof.
  intros H E k Hk. apply (in_keys m _ _ (Permutation_refl _)).
  assert (I : incl (map fst (map_to_list m')) (map fst (map_to_list m))).
  { apply NoDup_length_incl; [apply (nodup_keys m), Permutation_refl| |].
    - rewrite !map_length. change (length (map_to_list m)) with (size m). change (length (map_to_list m')) with (size m'). lia.
    - intros j Hj. apply (in_keys m' _ _ (Permutation_refl _)), H, (in_keys m _ _ (Permutation_refl _)), Hj. }
  apply I, (in_keys m' _ _ (Permutation_refl _)), Hk.
Qed.

(** How often the groups hold v. *)
Definition tot (data : list (list Z)) (v : Z) : Z := fold_right (fun xs a => zcount xs v + a) 0 data.
Lemma tot_app d1 d2 v : tot (d1 ++ d2) v = tot d1 v + tot d2 v.
Proof. unfold tot. induction d1 as [|x d1 IH]; cbn [app fold_right]; lia. Qed.
Lemma tot_cons xs d v : tot (xs :: d) v = zcount xs v + tot d v.
Proof. reflexivity. Qed.
Lemma tot_nonneg d v : 0 <= tot d v.
Proof. induction d as [|x d IH]; cbn [tot fold_right]; [lia|]. pose proof (zcount_nonneg x v). rewrite ?tot_cons in *. fold (tot d v). lia. Qed.
Lemma tot_perm d d' v : Permutation d d' -> tot d v = tot d' v.
Proof. unfold tot. induction 1; cbn [fold_right]; lia. Qed.
Lemma tot_zero d v : tot d v = 0 -> List.Forall (fun xs => zcount xs v = 0) d.
Proof.
  induction d as [|x d IH]; [constructor|]. rewrite tot_cons. pose proof (zcount_nonneg x v). pose proof (tot_nonneg d v).
  intro E. constructor; [lia|apply IH; lia].
Qed.

Section S.
  Context {F : Type} {N : Num F}.
  Variable dl : nat.
  (** x + 0 = x *)
  Hypothesis Hz : forall x : F, nadd x (nof 0) = x.
  Notation VS := (dpd_vs F).
  Implicit Types (sh : dpd_shared F) (t : dpd_vs F) (data : list (list Z)).

  Definition ent sh (b : F) (v : Z) (xs : list Z) : F := nlog (nadd (nmul (dp_alpha sh) b) (nof (zcount xs v))).
  Definition shf sh (xs : list Z) : F := nlog (nadd (dp_alpha sh) (nof (Z.of_nat (length xs)))).
  Definition ref_of t (v : Z) : Z := match dpv_scores t !! v with Some e => fst e | None => 0 end.
  Definition has t (v : Z) : Prop := dpv_scores t !! v <> None.

  Record vsinv sh data t : Prop := {
    vi_shift : dpv_shift t = map (shf sh) data;
    vi_entry : forall v r s, dpv_scores t !! v = Some (r, s) ->
      exists b, dp_betas sh !! v = Some b /\ s = map (ent sh b v) data /\ tot data v <= r;
    vi_none : forall v, dpv_scores t !! v = None -> tot data v = 0 }.

  Lemma valid_ok sh data t n : length data = n -> length (dpv_shift t) = n ->
    (forall v r s, dpv_scores t !! v = Some (r, s) -> dp_betas sh !! v <> None /\ length s = n) ->
    dpd_validate dl sh t n = Ok tt.
  Proof.
    intros Hn Hs He. unfold dpd_validate. apply dassert_at_true. unfold dpd_valid. rewrite !andb_true_iff.
    split; [split|].
    - apply Nat.leb_le, size_le. intros k Hk. destruct (dpv_scores t !! k) as [[r s]|] eqn:E; [|congruence]. apply (He _ _ _ E).
    - now apply Nat.eqb_eq.
    - apply forallb_forall. intros [k [r s]] Hin. apply (in_order _ _ _ _ (Permutation_refl _)) in Hin. destruct (He _ _ _ Hin) as [A B].
      cbn [fst snd]. unfold sp_contains. destruct (dp_betas sh !! k); [|congruence]. now apply Nat.eqb_eq.
  Qed.
  Lemma vsinv_valid sh data t : vsinv sh data t -> dpd_validate dl sh t (length data) = Ok tt.
  Proof.
    intro H. apply (valid_ok sh data); [reflexivity|rewrite (vi_shift _ _ _ H); apply map_length|].
    intros v r s E. destruct (vi_entry _ _ _ H _ _ _ E) as (b & Eb & -> & _). split; [congruence|apply map_length].
  Qed.

  Lemma vec_resize_length {A} (d : A) l n : length (vec_resize d l n) = n.
  Proof. unfold vec_resize. rewrite app_length, firstn_length, repeat_length. lia. Qed.

  (** init *)
  Lemma resize_entries n keys : List.NoDup keys -> forall sc, exists sc',
    dpd_resize_entries n keys sc = sc' /\
    (forall k, In k keys -> exists s, sc' !! k = Some (1, s) /\ length s = n) /\
    (forall k, ~ In k keys -> sc' !! k = sc !! k).
  Proof.
    induction keys as [|v keys IH]; intros Hn sc.
    - exists sc. split; [reflexivity|]. split; [intros k []|reflexivity].
    - apply NoDup_cons_iff in Hn as [Hv Hn]. unfold dpd_resize_entries. cbn [fold_left].
      destruct (sp_get_or_add (0, []) sc v) as [sc1 e] eqn:E1.
      destruct (IH Hn (<[v := (1, vec_resize (nof 0) e.2 n)]> sc1)) as (sc' & E & A & B).
      exists sc'. split; [exact E|]. split.
      + intros k [<-|Hk]; [|now apply A]. rewrite B by exact Hv. eexists. split; [apply lookup_insert|apply vec_resize_length].
      + intros k Hk. rewrite B by (intro; apply Hk; now right). rewrite lookup_insert_ne by (intros ->; apply Hk; now left).
        unfold sp_get_or_add in E1. destruct (sc !! v); injection E1 as <- <-; [reflexivity|].
        apply lookup_insert_ne. intros ->. apply Hk. now left.
  Qed.
  Lemma resize_ok sh t data : exists t1, dpd_vs_resize dl sh t (length data) = Ok t1 /\
    length (dpv_shift t1) = length data /\
    (forall k, dpv_scores t1 !! k <> None <-> dp_betas sh !! k <> None) /\
    (forall k r s, dpv_scores t1 !! k = Some (r, s) -> length s = length data).
  Proof.
    unfold dpd_vs_resize. set (n := length data).
    destruct (resize_entries n (map fst (map_to_list (dp_betas sh))) (nodup_keys _ _ (Permutation_refl _)) (dpv_scores t)) as (sc & -> & A & B).
    assert (K : forall k, In k (map fst (map_to_list (dp_betas sh))) <-> dp_betas sh !! k <> None) by (intro; apply in_keys, Permutation_refl).
    match goal with |- context[dpd_validate dl sh (mk_dpd_vs ?x _) _] => set (sc' := x) end.
    assert (H1 : forall k, sc' !! k <> None <-> dp_betas sh !! k <> None).
    { unfold sc'. destruct (Nat.eqb_spec (size sc) (size (dp_betas sh))) as [E|E].
      - intro k. split.
        + apply size_eq_keys; [|exact E]. intros j Hj. apply K, A in Hj. destruct Hj as (s & -> & _). discriminate.
        + intro Hj. apply K, A in Hj. destruct Hj as (s & -> & _). discriminate.
      - intro k. split.
        + intro H. match type of H with ?m !! k <> None => destruct (m !! k) as [e|] eqn:Ef end; [|congruence]. apply map_filter_lookup_Some in Ef as [_ Ef].
          cbn [fst] in Ef. unfold sp_contains in Ef. intro Hn. now rewrite Hn in Ef.
        + intros Hk. assert (Hk' := Hk). apply K, A in Hk' as (s & Es & _).
          match goal with |- ?m !! k <> None => assert (X : m !! k = Some (1, s)) end.
          { apply map_filter_lookup_Some. split; [exact Es|]. cbn [fst]. unfold sp_contains. destruct (dp_betas sh !! k); [reflexivity|congruence]. }
          rewrite X. discriminate. }
    assert (H2 : forall k r s, sc' !! k = Some (r, s) -> length s = n).
    { intros k r s E. assert (Hk : dp_betas sh !! k <> None) by (apply H1; congruence).
      apply K, A in Hk as (s' & Es & Hs).
      assert (sc !! k = Some (r, s)).
      { unfold sc' in E. destruct (Nat.eqb (size sc) (size (dp_betas sh))); [exact E|]. now apply map_filter_lookup_Some in E as [E _]. }
      congruence. }
    rewrite (valid_ok sh data).
    - cbn [obind]. eexists. split; [reflexivity|]. cbn [dpv_shift dpv_scores]. split; [apply vec_resize_length|]. split; [exact H1|exact H2].
    - reflexivity.
    - apply vec_resize_length.
    - cbn [dpv_scores]. intros v r s E. split; [apply H1; congruence|exact (H2 _ _ _ E)].
  Qed.
  Lemma firstn_S_nth {A} (l : list A) i x : nth_error l i = Some x -> firstn (S i) l = firstn i l ++ [x].
  Proof. revert i. induction l as [|a l IH]; intros [|i] E; try discriminate E; [now injection E as ->|]. cbn [nth_error] in E. rewrite !firstn_cons, (IH i E). reflexivity. Qed.

  Lemma init_ok sh t data : List.Forall (fun xs => List.Forall (dpd_known sh) xs) data ->
    (forall v, tot data v < 4294967296) ->
    exists t2, (let* t1 := dpd_vs_resize dl sh t (length data) in dpd_vs_update_all dl sh t1 (map dpd_stat data)) = Ok t2 /\
      vsinv sh data t2 /\ (forall v, has t2 v <-> dp_betas sh !! v <> None) /\ (forall v, ref_of t2 v = tot data v).
  Proof.
    intros Hk Ht. destruct (resize_ok sh t data) as (t1 & E1 & L1 & K1 & S1). rewrite E1. cbn [obind].
    unfold dpd_vs_update_all. rewrite map_length.
    rewrite (valid_ok sh data).
    2: reflexivity. 2: exact L1. 2:{ intros v r s E. split; [apply K1; congruence|eapply S1, E]. }
    cbn [obind].
    set (bof v := match dp_betas sh !! v with Some b => b | None => nof 0 end).
    rewrite (map_each_ok _ (fun v _ => (tot data v, map (ent sh (bof v) v) data))).
    2:{ intros v [r s] E. assert (Hb : dp_betas sh !! v <> None) by (apply K1; congruence).
        destruct (dp_betas sh !! v) as [b|] eqn:Eb; [|congruence]. rewrite (sp_get_some _ _ _ _ Eb). cbn [obind snd].
        assert (Ebof : bof v = b) by (unfold bof; now rewrite Eb). rewrite Ebof.
        destruct (vfor_inv (fun k (p : Z * list F) => p.1 = tot (firstn k data) v /\
                    colinv data (fun xs => nadd (nmul (dp_alpha sh) b) (nof (zcount xs v))) k p.2)
                  (fun i (p : Z * list F) => let* g := vget (map dpd_stat data) i in
                    let* s := vset p.2 i (nadd (nmul (dp_alpha sh) b) (nof (ctr_get_count g v))) in Ok (u32 (p.1 + ctr_get_count g v), s))
                  (length data) 0 (0, s)) as ([r' s'] & Ev & Hr & Hc).
        { split; [reflexivity|]. apply colinv_0. eapply S1, E. }
        { intros i [r' s'] Hi [Hr Hc]. cbn [fst snd] in *. destruct (vget_some data i) as (xs & Hx & _); [lia|].
          rewrite (vget_map dpd_stat _ _ _ Hx). cbn [obind]. rewrite dmap_get.
          destruct (colinv_step _ _ _ _ _ Hc Hx) as [Es Hc']. rewrite Es. cbn [obind]. eexists. split; [reflexivity|].
          cbn [fst snd]. split; [|exact Hc']. rewrite (firstn_S_nth _ _ _ Hx), tot_app, tot_cons, <- Hr. cbn [tot fold_right].
          rewrite Z.add_0_r. apply u32_small. rewrite Hr. pose proof (tot_nonneg (firstn i data) v). pose proof (zcount_nonneg xs v).
          assert (X : tot data v = tot (firstn (S i) data) v + tot (skipn (S i) data) v) by (rewrite <- tot_app; now rewrite firstn_skipn).
          rewrite (firstn_S_nth _ _ _ Hx), tot_app, tot_cons in X. cbn [tot fold_right] in X. pose proof (tot_nonneg (skipn (S i) data) v).
          specialize (Ht v). fold (tot (skipn (S i) data) v) in *. lia. }
        cbv beta zeta in Ev |- *. rewrite Ev. cbn [obind fst snd] in *. rewrite (colinv_end _ _ _ Hc). unfold vector_log_io. rewrite log_col. cbn [obind].
        rewrite Hr. cbn [Nat.add]. rewrite firstn_all. reflexivity. }
    cbn [obind].
    rewrite (out_loop data (fun xs => nadd (dp_alpha sh) (nof (Z.of_nat (length xs))))).
    2: exact L1.
    2:{ intros i o xs Hx. rewrite (vget_map dpd_stat _ _ _ Hx). reflexivity. }
    cbn [obind]. unfold vector_log_io. rewrite log_col. cbn [obind]. eexists. split; [reflexivity|].
    assert (LK : forall v, dpv_scores (mk_dpd_vs (map_imap (fun v _ => Some (tot data v, map (ent sh (bof v) v) data)) (dpv_scores t1)) (map (shf sh) data)) !! v =
                 if dp_betas sh !! v then Some (tot data v, map (ent sh (bof v) v) data) else None).
    { intro v. cbn [dpv_scores]. rewrite map_lookup_imap. pose proof (K1 v) as K. destruct (dpv_scores t1 !! v), (dp_betas sh !! v); cbn; try reflexivity; exfalso.
      - apply (proj1 K); [discriminate|reflexivity]. - apply (proj2 K); [discriminate|reflexivity]. }
    change (fun g => nlog (nadd (dp_alpha sh) (nof (Z.of_nat (length g))))) with (shf sh).
    assert (Hnone : forall v, dp_betas sh !! v = None -> tot data v = 0).
    { intros v E. clear -Hk E. induction Hk as [|xs data Hx Hk IH]; [reflexivity|]. rewrite tot_cons, IH, Z.add_0_r.
      pose proof (zcount_nonneg xs v). destruct (BinInt.Z.eq_dec (zcount xs v) 0); [assumption|]. exfalso.
      assert (Hin : In v xs) by (apply zcount_pos; lia). rewrite List.Forall_forall in Hx. apply Hx in Hin. destruct Hin. congruence. }
    split; [split|split].
    - reflexivity.
    - intros v r s. rewrite LK. destruct (dp_betas sh !! v) as [b|] eqn:Eb; [|discriminate]. intro E. injection E as <- <-.
      exists b. split; [reflexivity|]. unfold bof. rewrite Eb. split; [reflexivity|lia].
    - intros v. rewrite LK. destruct (dp_betas sh !! v) eqn:Eb; [discriminate|]. intros _. now apply Hnone.
    - intro v. unfold has. rewrite LK. destruct (dp_betas sh !! v); split; congruence.
    - intro v. unfold ref_of. rewrite LK. destruct (dp_betas sh !! v) eqn:Eb; [reflexivity|]. symmetry. now apply Hnone.
  Qed.

  (** add_group: the scorer's add_group followed by update_group of the new, empty group *)
  Lemma addg_ok sh data t : vsinv sh data t ->
    exists t1 t2, dpd_vs_add_group dl sh t = Ok t1 /\ dpd_vs_update_group dl sh t1 (length data) (dpd_stat []) = Ok t2 /\
      vsinv sh (data ++ [[]]) t2 /\ (forall v, has t2 v <-> has t v) /\ (forall v, ref_of t2 v = ref_of t v).
  Proof.
    intros H. unfold dpd_vs_add_group.
    set (bof v := match dp_betas sh !! v with Some b => b | None => nof 0 end).
    rewrite (map_each_ok _ (fun v (e : Z * list F) => (e.1, e.2 ++ [nlog (nmul (dp_alpha sh) (bof v))]))).
    2:{ intros v [r s] E. destruct (vi_entry _ _ _ H _ _ _ E) as (b & Eb & _). rewrite (sp_get_some _ _ _ _ Eb). cbn [obind]. unfold bof. now rewrite Eb. }
    cbn [obind]. do 2 eexists. split; [reflexivity|]. unfold dpd_vs_update_group. cbn [dpv_scores dpv_shift].
    rewrite (map_each_ok _ (fun v (e : Z * list F) => (e.1, map (ent sh (bof v) v) (data ++ [[]])))).
    2:{ intros v [r s'] E. rewrite map_lookup_imap in E. destruct (dpv_scores t !! v) as [[r0 s0]|] eqn:E0; [|discriminate]. cbn in E. injection E as <- <-.
        destruct (vi_entry _ _ _ H _ _ _ E0) as (b & Eb & -> & _). rewrite (sp_get_some _ _ _ _ Eb). cbn [obind fst snd].
        rewrite vset_mid by apply map_length. cbn [obind]. unfold bof. rewrite Eb. rewrite map_app. cbn [map]. unfold ent at 2. now rewrite dmap_get. }
    cbn [obind]. cbn [dpd_stat ctr_get_total ctotal obind]. unfold packed_add. rewrite (vi_shift _ _ _ H).
    rewrite vset_mid by apply map_length. cbn [obind]. split; [reflexivity|].
    assert (LK : forall v, map_imap (fun v (e : Z * list F) => Some (e.1, map (ent sh (bof v) v) (data ++ [[]])))
                 (map_imap (fun v (e : Z * list F) => Some (e.1, e.2 ++ [nlog (nmul (dp_alpha sh) (bof v))])) (dpv_scores t)) !! v =
               match dpv_scores t !! v with Some e => Some (e.1, map (ent sh (bof v) v) (data ++ [[]])) | None => None end).
    { intro v. rewrite !map_lookup_imap. destruct (dpv_scores t !! v); reflexivity. }
    split; [split|split]; cbn [dpv_scores dpv_shift].
    - rewrite map_app. reflexivity.
    - intros v r s. rewrite LK. destruct (dpv_scores t !! v) as [[r0 s0]|] eqn:E0; [|discriminate]. cbn [fst]. intro E. injection E as <- <-.
      destruct (vi_entry _ _ _ H _ _ _ E0) as (b & Eb & _ & Hr). exists b. split; [exact Eb|]. unfold bof. rewrite Eb. split; [reflexivity|].
      rewrite tot_app, tot_cons. cbn [tot fold_right]. unfold zcount. cbn. lia.
    - intros v. rewrite LK. destruct (dpv_scores t !! v) eqn:E0; [discriminate|]. intros _. rewrite tot_app, tot_cons, (vi_none _ _ _ H v E0). reflexivity.
    - intro v. unfold has. cbn [dpv_scores]. rewrite LK. destruct (dpv_scores t !! v); split; congruence.
    - intro v. unfold ref_of. cbn [dpv_scores]. rewrite LK. destruct (dpv_scores t !! v); reflexivity.
  Qed.

  (** remove_group *)
  Lemma remg_ok sh data t i xs data' : vsinv sh data t -> taken_out i data xs data' ->
    exists t', dpd_vs_remove_group dl sh t i = Ok t' /\
      vsinv sh data' t' /\ (forall v, has t' v <-> has t v) /\ (forall v, ref_of t' v = ref_of t v).
  Proof.
    intros H Ho. unfold dpd_vs_remove_group.
    set (bof v := match dp_betas sh !! v with Some b => b | None => nof 0 end).
    rewrite (map_each_ok _ (fun v (e : Z * list F) => (e.1, map (ent sh (bof v) v) data'))).
    2:{ intros v [r s] E. destruct (vi_entry _ _ _ H _ _ _ E) as (b & Eb & -> & _). cbn [snd fst].
        rewrite (taken_out_packed _ dl _ _ _ _ Ho). cbn [obind]. unfold bof. now rewrite Eb. }
    cbn [obind]. rewrite (vi_shift _ _ _ H), (taken_out_packed _ dl _ _ _ _ Ho). cbn [obind]. eexists. split; [reflexivity|].
    assert (Hle : forall v, 0 <= tot data' v <= tot data v).
    { intro v. rewrite (tot_perm _ _ v (taken_out_perm _ _ _ _ Ho)), tot_cons. pose proof (zcount_nonneg xs v). pose proof (tot_nonneg data' v). lia. }
    split; [split|split]; cbn [dpv_scores dpv_shift].
    - reflexivity.
    - intros v r s. rewrite map_lookup_imap. destruct (dpv_scores t !! v) as [[r0 s0]|] eqn:E0; [|discriminate]. cbn. intro E. injection E as <- <-.
      destruct (vi_entry _ _ _ H _ _ _ E0) as (b & Eb & _ & Hr). exists b. split; [exact Eb|]. unfold bof. rewrite Eb. split; [reflexivity|].
      specialize (Hle v). lia.
    - intros v. rewrite map_lookup_imap. destruct (dpv_scores t !! v) eqn:E0; [discriminate|]. intros _. pose proof (vi_none _ _ _ H v E0). specialize (Hle v). lia.
    - intro v. unfold has. cbn [dpv_scores]. rewrite map_lookup_imap. destruct (dpv_scores t !! v); cbn; split; congruence.
    - intro v. unfold ref_of. cbn [dpv_scores]. rewrite map_lookup_imap. destruct (dpv_scores t !! v); reflexivity.
  Qed.

  (** An entry of another value does not change when v is added to or removed from a group. *)
  Lemma ent_other sh b v w d1 xs ys d2 : w <> v -> (forall k, k <> v -> zcount ys k = zcount xs k) ->
    map (ent sh b w) (d1 ++ ys :: d2) = map (ent sh b w) (d1 ++ xs :: d2).
  Proof. intros Hw Hc. rewrite !map_app. cbn [map]. unfold ent at 2 5. now rewrite Hc. Qed.
  Lemma tot_other v w d1 xs ys d2 : w <> v -> (forall k, k <> v -> zcount ys k = zcount xs k) ->
    tot (d1 ++ ys :: d2) w = tot (d1 ++ xs :: d2) w.
  Proof. intros Hw Hc. rewrite !tot_app, !tot_cons. now rewrite Hc. Qed.

  Lemma resize_nil_or_same (x : F) s n : s = [] \/ length s = n -> vec_resize x s n = if (length s =? n)%nat then s else repeat x n.
  Proof.
    intros [->|<-]; unfold vec_resize.
    - cbn [length]. destruct (Nat.eqb_spec 0 n) as [<-|]; [reflexivity|]. rewrite firstn_nil. cbn [app]. now rewrite Nat.sub_0_r.
    - rewrite Nat.eqb_refl, firstn_all, Nat.sub_diag. apply app_nil_r.
  Qed.

  (** add_value *)
  Lemma addv_ok sh d1 xs d2 t v : vsinv sh (d1 ++ xs :: d2) t -> dpd_known sh v -> 0 <= ref_of t v -> ref_of t v + 1 < 4294967296 ->
    exists t', dpd_vs_add_value dl sh t (length d1) (dpd_stat (v :: xs)) v = Ok t' /\
      vsinv sh (d1 ++ (v :: xs) :: d2) t' /\ (forall w, has t' w <-> has t w \/ w = v) /\
      (forall w, ref_of t' w = ref_of t w + if w =? v then 1 else 0).
  Proof.
    intros H [Hv Hb] Hr0 Hr. destruct (dp_betas sh !! v) as [b|] eqn:Eb; [|congruence]. clear Hb.
    unfold dpd_vs_add_value. rewrite dassert_at_true by now rewrite (proj2 (Z.eqb_neq _ _) Hv). cbn [obind].
    assert (Hc : forall k, k <> v -> zcount (v :: xs) k = zcount xs k).
    { intros k Hk. rewrite zcount_cons. now rewrite (proj2 (Z.eqb_neq _ _) Hk). }
    assert (Hcv : zcount (v :: xs) v = zcount xs v + 1) by (rewrite zcount_cons, Z.eqb_refl; lia).
    (* the entry looked up or created, its new vector *)
    assert (Hent : exists sc e, sp_get_or_add (0, []) (dpv_scores t) v = (sc, e) /\ e.1 = ref_of t v /\
      (forall w, w <> v -> sc !! w = dpv_scores t !! w) /\
      (if (u32 (e.1 + 1) =? 1) then
         let* b := sp_get dl (dp_betas sh) v in
         Ok (vec_resize (nlog (nmul (dp_alpha sh) b)) e.2 (length (dpv_shift t)))
       else Ok e.2) = Ok (map (ent sh b v) (d1 ++ xs :: d2)) /\ tot (d1 ++ xs :: d2) v <= e.1).
    { unfold sp_get_or_add. unfold ref_of in *. destruct (dpv_scores t !! v) as [[r s]|] eqn:E.
      - destruct (vi_entry _ _ _ H _ _ _ E) as (b' & Eb' & -> & Htot). rewrite Eb in Eb'. injection Eb' as <-.
        exists (dpv_scores t), (r, map (ent sh b v) (d1 ++ xs :: d2)). split; [reflexivity|]. split; [reflexivity|]. split; [reflexivity|]. split; [|exact Htot].
        cbn [fst snd] in *. destruct (u32 (r + 1) =? 1); [|reflexivity]. rewrite (sp_get_some _ _ _ _ Eb). cbn [obind].
        rewrite resize_nil_or_same; [|right; rewrite (vi_shift _ _ _ H); now rewrite !map_length].
        now rewrite (vi_shift _ _ _ H), !map_length, Nat.eqb_refl.
      - eexists _, _. split; [reflexivity|]. split; [reflexivity|]. split; [intros; apply lookup_insert_ne; congruence|]. split.
        2:{ rewrite (vi_none _ _ _ H v E). cbn. lia. }
        cbn [fst snd]. change (u32 (0 + 1) =? 1) with true. cbn iota. rewrite (sp_get_some _ _ _ _ Eb). cbn [obind].
        rewrite (vi_shift _ _ _ H), map_length. f_equal.
        pose proof (tot_zero _ _ (vi_none _ _ _ H v E)) as Z0. unfold vec_resize. rewrite firstn_nil. cbn [length app]. rewrite Nat.sub_0_r.
        clear -Z0 Hz. induction Z0 as [|ys d Hy Z0 IH]; [reflexivity|]. cbn [length repeat map]. f_equal; [|exact IH]. unfold ent. now rewrite Hy, Hz. }
    destruct Hent as (sc & e & -> & He1 & Hsc & -> & Htot). cbn [obind].
    rewrite (sp_get_some _ _ _ _ Eb). cbn [obind]. rewrite map_app. cbn [map]. rewrite vset_mid by apply map_length. cbn [obind].
    cbn [dpd_stat ctr_get_total ctotal obind]. rewrite (vi_shift _ _ _ H), map_app. cbn [map]. rewrite vset_mid by apply map_length. cbn [obind].
    eexists. split; [reflexivity|]. rewrite u32_small by lia.
    fold (dpd_stat (v :: xs)). rewrite dmap_get. fold (ent sh b v (v :: xs)). fold (shf sh (v :: xs)).
    change (map (ent sh b v) d1 ++ ent sh b v (v :: xs) :: map (ent sh b v) d2) with (map (ent sh b v) d1 ++ map (ent sh b v) ((v :: xs) :: d2)).
    change (map (shf sh) d1 ++ shf sh (v :: xs) :: map (shf sh) d2) with (map (shf sh) d1 ++ map (shf sh) ((v :: xs) :: d2)).
    rewrite <- !map_app.
    split; [split|split]; cbn [dpv_scores dpv_shift].
    - reflexivity.
    - intros w r s. destruct (BinInt.Z.eq_dec w v) as [->|Hw].
      + rewrite lookup_insert. intro E. injection E as <- <-. exists b. split; [exact Eb|]. split; [reflexivity|].
        rewrite tot_app, tot_cons in *. rewrite Hcv. lia.
      + rewrite lookup_insert_ne by auto. rewrite Hsc by exact Hw. intro E. destruct (vi_entry _ _ _ H _ _ _ E) as (b' & Eb' & -> & Hle).
        exists b'. split; [exact Eb'|]. rewrite (ent_other sh b' v w d1 xs (v :: xs) d2 Hw Hc). rewrite (tot_other v w d1 xs (v :: xs) d2 Hw Hc). auto.
    - intros w. destruct (BinInt.Z.eq_dec w v) as [->|Hw]; [rewrite lookup_insert; discriminate|].
      rewrite lookup_insert_ne by auto. rewrite Hsc by exact Hw. intro E. rewrite (tot_other v w d1 xs (v :: xs) d2 Hw Hc). apply (vi_none _ _ _ H w E).
    - intro w. unfold has. cbn [dpv_scores]. destruct (BinInt.Z.eq_dec w v) as [->|Hw].
      + rewrite lookup_insert. split; [auto|discriminate].
      + rewrite lookup_insert_ne by auto. rewrite Hsc by exact Hw. split; [auto|]. intros [?|?]; [assumption|contradiction].
    - intro w. unfold ref_of at 1. cbn [dpv_scores]. destruct (Z.eqb_spec w v) as [->|Hw].
      + rewrite lookup_insert. cbn [fst]. lia.
      + rewrite lookup_insert_ne by auto. rewrite Hsc by exact Hw. fold (ref_of t w). lia.
  Qed.

  (** remove_value *)
  Lemma remv_ok sh d1 xs ys d2 t v : vsinv sh (d1 ++ xs :: d2) t -> v <> OTHER -> ref_of t v < 4294967296 ->
    Permutation xs (v :: ys) ->
    exists t', dpd_vs_remove_value dl sh t (length d1) (dpd_stat ys) v = Ok t' /\
      vsinv sh (d1 ++ ys :: d2) t' /\ (forall w, w <> v -> has t' w <-> has t w) /\ (has t' v <-> ref_of t' v <> 0) /\
      (forall w, ref_of t' w = ref_of t w - if w =? v then 1 else 0).
  Proof.
    intros H Hv Hr P. unfold dpd_vs_remove_value. rewrite dassert_at_true by now rewrite (proj2 (Z.eqb_neq _ _) Hv). cbn [obind].
    assert (Hx : forall k, zcount xs k = if k =? v then zcount ys v + 1 else zcount ys k).
    { intro k. rewrite (zcount_perm _ _ k P), zcount_cons. destruct (Z.eqb_spec k v); subst; lia. }
    assert (Hc : forall k, k <> v -> zcount ys k = zcount xs k) by (intros k Hk; rewrite Hx; now rewrite (proj2 (Z.eqb_neq _ _) Hk)).
    assert (Hcv : zcount xs v = zcount ys v + 1) by (rewrite Hx, Z.eqb_refl; lia).
    assert (Htv : tot (d1 ++ xs :: d2) v = tot (d1 ++ ys :: d2) v + 1) by (rewrite !tot_app, !tot_cons, Hcv; lia).
    pose proof (tot_nonneg (d1 ++ ys :: d2) v) as Hnn.
    destruct (dpv_scores t !! v) as [[r s]|] eqn:E.
    2:{ pose proof (vi_none _ _ _ H v E). lia. }
    destruct (vi_entry _ _ _ H _ _ _ E) as (b & Eb & -> & Htot). rewrite (sp_get_some _ _ _ _ E). cbn [obind fst snd].
    unfold ref_of in Hr. rewrite E in Hr. cbn [fst] in Hr. rewrite u32_small by lia.
    assert (Hsc : (if r - 1 =? 0 then sp_remove dl (dpv_scores t) v
         else let* b0 := sp_get dl (dp_betas sh) v in
           let* s := vset (map (ent sh b v) (d1 ++ xs :: d2)) (length d1) (nlog (nadd (nmul (dp_alpha sh) b0) (nof (ctr_get_count (dpd_stat ys) v)))) in
           Ok (<[v:=(r - 1, s)]> (dpv_scores t))) =
       Ok (if r - 1 =? 0 then delete v (dpv_scores t) else <[v:=(r - 1, map (ent sh b v) (d1 ++ ys :: d2))]> (dpv_scores t))).
    { destruct (Z.eqb_spec (r - 1) 0).
      - unfold sp_remove. rewrite dassert_at_true by (unfold sp_contains; now rewrite E). reflexivity.
      - rewrite (sp_get_some _ _ _ _ Eb). cbn [obind]. rewrite map_app. cbn [map]. rewrite vset_mid by apply map_length. cbn [obind].
        rewrite dmap_get. rewrite map_app. reflexivity. }
    rewrite Hsc. cbn [obind]. clear Hsc. cbn [dpd_stat ctr_get_total ctotal obind].
    rewrite (vi_shift _ _ _ H), map_app. cbn [map]. rewrite vset_mid by apply map_length. cbn [obind].
    eexists. split; [reflexivity|]. fold (shf sh ys).
    change (map (shf sh) d1 ++ shf sh ys :: map (shf sh) d2) with (map (shf sh) d1 ++ map (shf sh) (ys :: d2)). rewrite <- map_app.
    assert (LK : forall w, (if r - 1 =? 0 then delete v (dpv_scores t) else <[v:=(r - 1, map (ent sh b v) (d1 ++ ys :: d2))]> (dpv_scores t)) !! w =
       if w =? v then (if r - 1 =? 0 then None else Some (r - 1, map (ent sh b v) (d1 ++ ys :: d2))) else dpv_scores t !! w).
    { intro w. destruct (Z.eqb_spec w v) as [->|Hw]; destruct (r - 1 =? 0).
      - apply lookup_delete. - apply lookup_insert. - apply lookup_delete_ne; congruence. - apply lookup_insert_ne; congruence. }
    split; [split|split; [|split]]; cbn [dpv_scores dpv_shift].
    - reflexivity.
    - intros w r' s'. rewrite LK. destruct (Z.eqb_spec w v) as [->|Hw].
      + destruct (r - 1 =? 0); [discriminate|]. intro X. injection X as <- <-. exists b. split; [exact Eb|]. split; [reflexivity|lia].
      + intro X. destruct (vi_entry _ _ _ H _ _ _ X) as (b' & Eb' & -> & Hle).
        exists b'. split; [exact Eb'|]. rewrite (ent_other sh b' v w d1 xs ys d2 Hw Hc). rewrite (tot_other v w d1 xs ys d2 Hw Hc). auto.
    - intros w. rewrite LK. destruct (Z.eqb_spec w v) as [->|Hw].
      + destruct (Z.eqb_spec (r - 1) 0); [|discriminate]. intros _. lia.
      + intro X. rewrite (tot_other v w d1 xs ys d2 Hw Hc). apply (vi_none _ _ _ H w X).
    - intros w Hw. unfold has. cbn [dpv_scores]. rewrite LK. now rewrite (proj2 (Z.eqb_neq _ _) Hw).
    - unfold has, ref_of. cbn [dpv_scores]. rewrite LK, Z.eqb_refl. destruct (Z.eqb_spec (r - 1) 0); cbn [fst]; split; congruence.
    - intro w. unfold ref_of. cbn [dpv_scores]. rewrite LK. destruct (Z.eqb_spec w v) as [->|Hw]; [|lia].
      rewrite E. cbn [fst]. destruct (Z.eqb_spec (r - 1) 0); cbn [fst]; lia.
  Qed.

  (** score_value_group and score_value *)
  Definition dfast sh (xs : list Z) (v : Z) : F :=
    nsub (if v =? OTHER then nlog (nmul (dp_alpha sh) (dp_beta0 sh))
          else match dp_betas sh !! v with Some b => ent sh b v xs | None => nof 0 end) (shf sh xs).
  Definition scorable sh (v : Z) : Prop := v = OTHER \/ dpd_known sh v.
  Lemma score_group_ok sh data t i xs v : vsinv sh data t -> dp_betas sh !! OTHER = None -> scorable sh v -> nth_error data i = Some xs ->
    dpd_vs_score_group dl sh t (map dpd_stat data) i v = Ok (dfast sh xs v).
  Proof.
    intros H Ho Hv Hi. unfold dpd_vs_score_group. rewrite map_length, (vsinv_valid _ _ _ H). cbn [obind]. unfold sp_contains, dfast.
    destruct (dpv_scores t !! v) as [[r s]|] eqn:E.
    - destruct (vi_entry _ _ _ H _ _ _ E) as (b & Eb & -> & _). rewrite (sp_get_some _ _ _ _ E). cbn [obind snd].
      rewrite (vget_map _ _ _ _ Hi), (vi_shift _ _ _ H), (vget_map _ _ _ _ Hi). cbn [obind]. rewrite Eb.
      destruct (Z.eqb_spec v OTHER); [congruence|reflexivity].
    - unfold dpd_absent_beta. rewrite (vi_shift _ _ _ H), (vget_map _ _ _ _ Hi).
      destruct (Z.eqb_spec v OTHER) as [->|Hne]; [reflexivity|]. destruct Hv as [?|[_ Hb]]; [contradiction|].
      destruct (dp_betas sh !! v) as [b|] eqn:Eb; [|congruence]. rewrite (sp_get_some _ _ _ _ Eb). cbn [obind]. f_equal. f_equal.
      unfold ent. pose proof (tot_zero _ _ (vi_none _ _ _ H v E)) as Z0. rewrite List.Forall_forall in Z0.
      rewrite (Z0 xs (nth_error_In _ _ Hi)). now rewrite Hz.
  Qed.
  Lemma score_ok sh data t v accum : vsinv sh data t -> dp_betas sh !! OTHER = None -> scorable sh v -> length accum = length data ->
    dpd_vs_score dl sh t (map dpd_stat data) v accum = Ok (col_add accum (map (fun xs => dfast sh xs v) data)).
  Proof.
    intros H Ho Hv Hl. unfold dpd_vs_score. rewrite map_length, (vsinv_valid _ _ _ H). cbn [obind]. unfold sp_contains.
    assert (G : forall i xs, nth_error data i = Some xs -> dpd_vs_score_group dl sh t (map dpd_stat data) i v = Ok (dfast sh xs v))
      by (intros; now apply score_group_ok).
    unfold dpd_vs_score_group in G. rewrite map_length, (vsinv_valid _ _ _ H) in G. cbn [obind] in G. unfold sp_contains in G.
    destruct (dpv_scores t !! v) as [[r s]|] eqn:E.
    - rewrite (sp_get_some _ _ _ _ E) in *. cbn [obind snd] in *. apply accum_loop; [exact Hl|].
      intros i x xs _ Hi. specialize (G i xs Hi). destruct (vget s i) as [a| |]; cbn [obind] in *; try discriminate.
      destruct (vget (dpv_shift t) i) as [h| |]; cbn [obind] in *; try discriminate. injection G as <-. reflexivity.
    - destruct (dpd_absent_beta dl sh v) as [b| |] eqn:Eb; cbn [obind] in *.
      + apply accum_loop; [exact Hl|]. intros i x xs _ Hi. specialize (G i xs Hi).
        destruct (vget (dpv_shift t) i) as [h| |]; cbn [obind] in *; try discriminate. injection G as <-. reflexivity.
      + exfalso. unfold dpd_absent_beta in Eb. destruct (Z.eqb_spec v OTHER); [discriminate|]. destruct Hv as [?|[_ Hb]]; [contradiction|].
        destruct (dp_betas sh !! v) eqn:X; [|congruence]. rewrite (sp_get_some _ _ _ _ X) in Eb. discriminate.
      + exfalso. unfold dpd_absent_beta in Eb. destruct (Z.eqb_spec v OTHER); [discriminate|]. destruct Hv as [?|[_ Hb]]; [contradiction|].
        destruct (dp_betas sh !! v) eqn:X; [|congruence]. rewrite (sp_get_some _ _ _ _ X) in Eb. discriminate.
  Qed.
End S.
