From Verif.model Require Import Base Packed IdTracker TrackerRun.
From Verif.spec Require Import TrackerSpec.
From Verif.proof Require Import BaseProof PackedProof.
From stdpp Require Import gmap.
From Coq Require Import Permutation.
Local Open Scope Z_scope.

Record tinv (t : tracker) (ids : list Z) (n : Z) : Prop := {
  ti_p2g : p2g t = ids;
  ti_size : gsize t = n;
  ti_nodup : NoDup ids;
  ti_range : forall g, In g ids -> 0 <= g < n;
  ti_len : Z.of_nat (length ids) <= n;
  ti_g2p : forall g p, g2p t !! g = Some p <->
      0 <= p /\ nth_error ids (Z.to_nat p) = Some g }.

Lemma nth_error_snoc {A} (l : list A) a i x :
  nth_error (l ++ [a]) i = Some x <-> nth_error l i = Some x \/ (i = length l /\ x = a).
Proof.
  destruct (lt_eq_lt_dec i (length l)) as [[H|H]|H].
  - rewrite nth_error_app1 by lia. split; [auto|intros [?|[? ?]]; [auto|lia]].
  - subst. rewrite nth_error_app2, Nat.sub_diag by lia. simpl.
    assert (nth_error l (length l) = None) as -> by (apply nth_error_None; lia).
    split; [intro E; injection E as <-; auto|intros [?|[_ ->]]; [discriminate|reflexivity]].
  - assert (nth_error (l ++ [a]) i = None) as -> by (apply nth_error_None; rewrite app_length; simpl; lia).
    assert (nth_error l i = None) as -> by (apply nth_error_None; lia).
    split; [discriminate|intros [?|[? ?]]; [discriminate|lia]].
Qed.

Lemma nodup_nth {A} (l : list A) i j x : NoDup l ->
  nth_error l i = Some x -> nth_error l j = Some x -> i = j.
Proof.
  intros H Hi Hj. apply (proj1 (NoDup_nth_error l) (proj1 (NoDup_ListNoDup l) H)).
  - apply nth_error_Some. congruence.
  - congruence.
Qed.

Lemma step_add t ids n : tinv t ids n -> n < 2 ^ 32 ->
  tinv (tracker_add_group t) (ids ++ [n]) (n + 1).
Proof.
  intros [H1 H2 H3 H4 H5 H6] Hn.
  assert (Hu : forall z, 0 <= z < 2 ^ 32 -> u32 z = z) by (intros; apply Z.mod_small; lia).
  assert (Hfresh : ~ In n ids) by (intro Hi; apply H4 in Hi; lia).
  unfold tracker_add_group, packed_size. rewrite H1, H2.
  rewrite !Hu by lia.
  destruct (g2p t !! n) as [p|] eqn:E.
  { exfalso. apply H6 in E. destruct E as [_ E]. apply nth_error_In in E. auto. }
  split; simpl; auto.
  - apply NoDup_app. split; [auto|]. split; [|apply NoDup_singleton].
    intros x Hx Hx'. apply elem_of_list_singleton in Hx'. subst. apply elem_of_list_In in Hx. auto.
  - intros g Hg. apply in_app_or in Hg. destruct Hg as [Hg|[<-|[]]]; [apply H4 in Hg|]; lia.
  - rewrite app_length. simpl. lia.
  - intros g p. rewrite nth_error_snoc. destruct (decide (g = n)) as [->|Hne].
    + rewrite lookup_insert. split.
      * intro E'. injection E' as <-. split; [lia|right; split; [lia|reflexivity]].
      * intros [Hp [E'|[E' _]]]; [exfalso; apply nth_error_In in E'; auto|]. f_equal. lia.
    + rewrite lookup_insert_ne by auto. rewrite H6.
      split; [intros [? ?]; auto|intros [? [?|[_ ?]]]; [auto|congruence]].
Qed.

Lemma init_add k t ids n : tinv t ids n -> n + Z.of_nat k <= 2 ^ 32 ->
  tinv (tracker_add_groups k t) (ids ++ map (fun i => n + Z.of_nat i) (seq 0 k)) (n + Z.of_nat k).
Proof.
  revert t ids n; induction k as [|k IH]; intros t ids n H Hn; simpl.
  - rewrite app_nil_r, Z.add_0_r. exact H.
  - pose proof (step_add _ _ _ H ltac:(lia)) as H1.
    specialize (IH _ _ _ H1 ltac:(lia)).
    replace (n + 1 + Z.of_nat k) with (n + Z.pos (Pos.of_succ_nat k)) in IH by lia.
    replace (map _ (seq 1 k)) with (map (fun i => n + 1 + Z.of_nat i) (seq 0 k)).
    + rewrite Z.add_0_r. rewrite <- app_assoc in IH. exact IH.
    + rewrite <- seq_shift, map_map. apply map_ext. intros; lia.
Qed.

Lemma init_inv k : Z.of_nat k <= 2 ^ 32 -> tinv (tracker_init k) (first_ids k) (Z.of_nat k).
Proof.
  intro Hk. assert (H0 : tinv (mk_tracker [] ∅ 0) [] 0).
  { split; simpl; auto; try lia; [apply NoDup_nil_2|].
    intros g p. rewrite lookup_empty. split; [discriminate|].
    intros [_ E]. destruct (Z.to_nat p); discriminate. }
  exact (init_add k _ _ _ H0 Hk).
Qed.

Lemma step_rem dl t pre g post ids' n : tinv t (pre ++ g :: post) n ->
  (post = [] /\ ids' = pre \/ exists mid z, post = mid ++ [z] /\ ids' = pre ++ z :: mid) ->
  exists t', tracker_remove_group dl t (Z.of_nat (length pre)) = Ok t' /\ tinv t' ids' n.
Proof.
  intros [H1 H2 H3 H4 H5 H6] Hc.
  assert (Hg : 0 <= g < n) by (apply H4, in_or_app; right; left; reflexivity).
  unfold tracker_remove_group, packed_size. rewrite H1, H2, Nat2Z.id.
  rewrite dassert_at_true by (apply Z.ltb_lt; rewrite app_length; simpl; lia). cbn [obind].
  rewrite vget_app. cbn [obind]. rewrite dassert_at_true by (apply Z.ltb_lt; lia). cbn [obind].
  destruct Hc as [[-> ->]|(mid & z & -> & ->)].
  - rewrite packed_remove_last. cbn [obind]. rewrite Z.eqb_refl.
    eexists. split; [reflexivity|]. split; simpl; auto.
    + apply NoDup_app in H3. tauto.
    + intros h Hh. apply H4, in_or_app. auto.
    + rewrite app_length in H5. lia.
    + intros h p. destruct (decide (h = g)) as [->|Hne].
      * rewrite lookup_delete. split; [discriminate|]. intros [_ E]. exfalso.
        apply NoDup_app in H3. destruct H3 as (_ & H3 & _).
        apply (H3 g); [apply elem_of_list_In; eapply nth_error_In; eauto|left].
      * rewrite lookup_delete_ne by auto. rewrite H6, nth_error_snoc.
        split; [intros [? [?|[_ ?]]]; [auto|congruence]|intros [? ?]; auto].
  - rewrite packed_remove_inner. cbn [obind].
    replace (_ =? _) with false by (symmetry; apply Z.eqb_neq; rewrite app_length; simpl; lia).
    rewrite vget_app. cbn [obind].
    assert (Hz : 0 <= z < n) by (apply H4; rewrite !in_app_iff; simpl; rewrite in_app_iff; simpl; auto).
    rewrite dassert_at_true by (apply Z.ltb_lt; lia). cbn [obind].
    assert (HP : Permutation (pre ++ g :: mid ++ [z]) (g :: pre ++ z :: mid)).
    { rewrite <- (Permutation_cons_append mid z), <- Permutation_middle. reflexivity. }
    assert (H3' : NoDup (g :: pre ++ z :: mid)) by (rewrite <- HP; exact H3).
    apply NoDup_cons in H3'. destruct H3' as [Hgn H3'].
    assert (Hzg : z <> g) by (intros ->; apply Hgn; apply elem_of_app; right; left).
    assert (Ez : nth_error (pre ++ g :: mid ++ [z]) (length (pre ++ g :: mid)) = Some z).
    { rewrite (app_assoc pre (g :: mid) [z] : pre ++ g :: mid ++ [z] = _).
      rewrite nth_error_app2, Nat.sub_diag by lia. reflexivity. }
    assert (E2 : g2p t !! z = Some (Z.of_nat (length (pre ++ g :: mid)))).
    { apply H6. split; [lia|]. now rewrite Nat2Z.id. }
    rewrite lookup_delete_ne, E2 by auto.
    eexists. split; [reflexivity|]. split; simpl; auto.
    + intros h Hh. apply H4. apply (Permutation_in _ (Permutation_sym HP)). right. exact Hh.
    + revert H5. rewrite !app_length. simpl. rewrite app_length. simpl. lia.
    + intros h p. destruct (decide (h = z)) as [->|Hhz].
      * rewrite lookup_insert. split.
        -- intro E. injection E as <-. rewrite Nat2Z.id. split; [lia|].
           rewrite nth_error_app2, Nat.sub_diag by lia. reflexivity.
        -- intros [Hp E]. f_equal.
           assert (E' : nth_error (pre ++ z :: mid) (length pre) = Some z)
             by (rewrite nth_error_app2, Nat.sub_diag by lia; reflexivity).
           pose proof (nodup_nth _ _ _ _ H3' E E'). lia.
      * rewrite lookup_insert_ne by auto. destruct (decide (h = g)) as [->|Hhg].
        -- rewrite lookup_delete. split; [discriminate|]. intros [_ E]. exfalso. apply Hgn.
           apply elem_of_list_In. eapply nth_error_In; eauto.
        -- rewrite lookup_delete_ne, H6 by auto.
           assert (EQ : forall i, nth_error (pre ++ g :: mid ++ [z]) i = Some h <->
                                  nth_error (pre ++ z :: mid) i = Some h).
           { intro i. destruct (lt_eq_lt_dec i (length pre)) as [[Hl|Hl]|Hl].
             - rewrite !nth_error_app1 by lia. tauto.
             - subst i. rewrite !nth_error_app2, !Nat.sub_diag by lia. simpl. split; congruence.
             - rewrite !(nth_error_app2 pre) by lia.
               replace (i - length pre)%nat with (S (i - S (length pre)))%nat by lia. simpl.
               rewrite nth_error_snoc. split; [intros [?|[_ ?]]; [auto|congruence]|auto]. }
           rewrite EQ. tauto.
Qed.

Lemma tstep_ok dl t ids n o ids' n' : tinv t ids n -> tstep (ids, n) o (ids', n') -> n' <= 2 ^ 32 ->
  exists t', trun1 dl t o = Ok t' /\ tinv t' ids' n'.
Proof.
  intros H Hs Hn. inversion Hs; subst; simpl.
  - eexists. split; [reflexivity|]. apply step_add; [auto|lia].
  - eapply step_rem; eauto.
  - eapply step_rem; eauto.
Qed.

Lemma tsteps_mono s ops s' : tsteps s ops s' -> snd s' = snd s + adds ops /\ 0 <= adds ops.
Proof.
  induction 1 as [|s o s1 ops s2 Hs H IH]; simpl; [lia|].
  inversion Hs; subst; simpl in *; lia.
Qed.

Lemma tsteps_ok dl s ops s' : tsteps s ops s' -> forall t, tinv t (fst s) (snd s) -> snd s' <= 2 ^ 32 ->
  exists t', trun dl t ops = Ok t' /\ tinv t' (fst s') (snd s').
Proof.
  induction 1 as [|s o s1 ops s2 Hs H IH]; intros t Ht Hn; simpl.
  - eauto.
  - destruct s as [ids n], s1 as [ids1 n1]. simpl in *.
    pose proof (tsteps_mono _ _ _ H) as Hm. simpl in Hm.
    destruct (tstep_ok dl t ids n o ids1 n1 Ht Hs) as (t1 & -> & H1); [lia|]. cbn [obind].
    apply IH; auto.
Qed.

Lemma legal_tsteps ops : forall ids n, legal (Z.of_nat (length ids)) ops ->
  exists ids', tsteps (ids, n) ops (ids', n + adds ops).
Proof.
  induction ops as [|[|p] ops IH]; intros ids n H; simpl in H.
  - exists ids. simpl. rewrite Z.add_0_r. constructor.
  - destruct (IH (ids ++ [n]) (n + 1)) as (ids' & Hs).
    { rewrite app_length, Nat2Z.inj_add. exact H. }
    exists ids'. simpl. rewrite Z.add_assoc. econstructor; [constructor|exact Hs].
  - destruct H as [Hp H].
    destruct (nth_error ids (Z.to_nat p)) as [g|] eqn:E.
    2:{ apply nth_error_None in E. lia. }
    destruct (last_or_inner _ _ _ E) as [(pre & -> & Hl)|(pre & mid & z & -> & Hl)].
    + destruct (IH pre n) as (ids' & Hs).
      { rewrite app_length in H. simpl in H. replace (Z.of_nat (length pre)) with (Z.of_nat (length pre + 1) - 1) by lia. exact H. }
      exists ids'. simpl. econstructor; [|exact Hs].
      replace p with (Z.of_nat (length pre)) by lia. constructor.
    + destruct (IH (pre ++ z :: mid) n) as (ids' & Hs).
      { rewrite app_length in *. simpl in *. rewrite app_length in H. simpl in H.
        match goal with |- legal ?a _ => match type of H with legal ?b _ => replace a with b by lia end end. exact H. }
      exists ids'. simpl. econstructor; [|exact Hs].
      replace p with (Z.of_nat (length pre)) by lia. constructor.
Qed.

Lemma len_first k : length (first_ids k) = k.
Proof. unfold first_ids. now rewrite map_length, seq_length. Qed.

Lemma inv_obs dl t ids n : tinv t ids n ->
  packed_size t = Z.of_nat (length ids) /\ global_size t = n /\
  (forall p g, 0 <= p -> nth_error ids (Z.to_nat p) = Some g ->
     packed_to_global dl t p = Ok g /\ global_to_packed dl t g = Ok p) /\
  (forall g, ~ In g ids -> (1 <= dl)%nat -> global_to_packed dl t g = Fail).
Proof.
  intros [H1 H2 H3 H4 H5 H6]. unfold packed_size, global_size. rewrite H1, H2.
  split; [reflexivity|]. split; [reflexivity|]. split.
  - intros p g Hp E.
    assert (Hl : p < Z.of_nat (length ids)).
    { assert ((Z.to_nat p < length ids)%nat) by (apply nth_error_Some; congruence). lia. }
    assert (Hg : 0 <= g < n) by (eapply H4, nth_error_In; eauto).
    unfold packed_to_global, global_to_packed, packed_size, vget. rewrite H1, H2, E.
    replace (g2p t !! g) with (Some p) by (symmetry; apply H6; auto).
    repeat (rewrite dassert_at_true by (apply Z.ltb_lt; lia); cbn [obind]). auto.
  - intros g Hg Hd. unfold global_to_packed, dassert_at.
    destruct (Nat.leb_spec 1 dl); [|lia]. unfold dassert.
    destruct (g <? gsize t); [|reflexivity]. cbn [obind].
    destruct (g2p t !! g) as [p|] eqn:E; [|reflexivity].
    apply H6 in E. destruct E as [_ E]. apply nth_error_In in E. tauto.
Qed.

Lemma tracker_bijection dl k ops :
  legal (Z.of_nat k) ops -> Z.of_nat k + adds ops <= 2 ^ 32 ->
  exists t ids, trun dl (tracker_init k) ops = Ok t /\
    tsteps (first_ids k, Z.of_nat k) ops (ids, Z.of_nat k + adds ops) /\
    packed_size t = Z.of_nat (length ids) /\ global_size t = Z.of_nat k + adds ops /\
    NoDup ids /\
    (forall p g, 0 <= p -> nth_error ids (Z.to_nat p) = Some g ->
       packed_to_global dl t p = Ok g /\ global_to_packed dl t g = Ok p) /\
    (forall g, ~ In g ids -> (1 <= dl)%nat -> global_to_packed dl t g = Fail).
Proof.
  intros Hl Hb. destruct (legal_tsteps ops (first_ids k) (Z.of_nat k)) as (ids & Hs).
  { now rewrite len_first. }
  pose proof (tsteps_mono _ _ _ Hs) as Hm. simpl in Hm.
  destruct (tsteps_ok dl _ _ _ Hs (tracker_init k) (init_inv k ltac:(lia)) Hb) as (t & E & Ht).
  simpl in Ht. exists t, ids. destruct (inv_obs dl _ _ _ Ht) as (A & B & C & D).
  repeat split; auto; try apply Ht; apply C; auto.
Qed.

Lemma inv_live dl t ids n : tinv t ids n -> forall g, live dl t g <-> In g ids.
Proof.
  intros H g. destruct (inv_obs dl _ _ _ H) as (A & B & C & D). unfold live. rewrite A. split.
  - intros (p & Hp & E). destruct (nth_error ids (Z.to_nat p)) as [g'|] eqn:E'.
    + destruct (C p g' ltac:(lia) E') as [E2 _]. rewrite E2 in E. injection E as <-.
      eapply nth_error_In; eauto.
    + apply nth_error_None in E'. lia.
  - intro Hi. apply In_nth_error in Hi. destruct Hi as [i E]. exists (Z.of_nat i).
    split.
    + assert ((i < length ids)%nat) by (apply nth_error_Some; congruence). lia.
    + apply C; [lia|]. now rewrite Nat2Z.id.
Qed.

Lemma tsteps_app s ops1 ops2 s2 : tsteps s (ops1 ++ ops2) s2 ->
  exists s1, tsteps s ops1 s1 /\ tsteps s1 ops2 s2.
Proof.
  revert s; induction ops1 as [|o ops1 IH]; intros s H; simpl in *.
  - exists s. split; [constructor|exact H].
  - inversion H; subst. destruct (IH _ H5) as (s' & ? & ?). exists s'. split; [econstructor|]; eauto.
Qed.

Lemma legal_app ops1 ops2 k : legal k (ops1 ++ ops2) -> legal k ops1.
Proof.
  revert k; induction ops1 as [|[|p] ops1 IH]; intros k H; simpl in *; auto.
  destruct H; auto.
Qed.
Lemma adds_app ops1 ops2 : adds (ops1 ++ ops2) = adds ops1 + adds ops2.
Proof. induction ops1 as [|[|p] ops1 IH]; simpl; lia. Qed.
Lemma adds_nonneg ops : 0 <= adds ops.
Proof. induction ops as [|[|p] ops IH]; simpl; lia. Qed.

(** New ids are fresh with respect to every earlier moment. *)
Lemma tracker_add_fresh dl k ops0 ops1 t :
  legal (Z.of_nat k) (ops0 ++ ops1) -> Z.of_nat k + adds (ops0 ++ ops1) < 2 ^ 32 ->
  trun dl (tracker_init k) (ops0 ++ ops1) = Ok t ->
  exists g, (forall h, live dl (tracker_add_group t) h <-> live dl t h \/ h = g) /\
    packed_to_global dl (tracker_add_group t) (packed_size t) = Ok g /\
    (forall t0, trun dl (tracker_init k) ops0 = Ok t0 -> ~ live dl t0 g).
Proof.
  intros Hl Hb Hr. destruct (legal_tsteps _ (first_ids k) (Z.of_nat k)
    ltac:(rewrite len_first; exact Hl)) as (ids & Hs).
  set (n := Z.of_nat k + adds (ops0 ++ ops1)) in *.
  pose proof (adds_nonneg (ops0 ++ ops1)).
  destruct (tsteps_ok dl _ _ _ Hs (tracker_init k) (init_inv k ltac:(unfold n in *; lia))) as (t' & E & Ht);
    [simpl; lia|]. rewrite E in Hr. injection Hr as ->. simpl in Ht.
  pose proof (step_add _ _ _ Ht Hb) as Ht'.
  exists n. split; [|split].
  - intro h. rewrite (inv_live dl _ _ _ Ht' h), (inv_live dl _ _ _ Ht h), in_app_iff. simpl.
    split; [intros [?|[?|[]]]; auto|intros [?|?]; auto].
  - destruct (inv_obs dl _ _ _ Ht') as (A & B & C & D).
    destruct (inv_obs dl _ _ _ Ht) as (A' & _). rewrite A'. apply C; [lia|].
    rewrite Nat2Z.id, nth_error_app2, Nat.sub_diag by lia. reflexivity.
  - intros t0 E0. destruct (tsteps_app _ _ _ _ Hs) as (s1 & Hs1 & Hs2).
    pose proof (tsteps_mono _ _ _ Hs2) as Hm2.
    destruct (tsteps_ok dl _ _ _ Hs1 (tracker_init k) (init_inv k ltac:(unfold n in *; lia))) as (t1 & E1 & Ht1).
    { simpl in Hm2. lia. }
    rewrite E1 in E0. injection E0 as ->.
    rewrite (inv_live dl _ _ _ Ht1). intro Hi. apply (ti_range _ _ _ Ht1) in Hi. simpl in Hm2. lia.
Qed.

Lemma tracker_remove_exact dl k ops t p :
  legal (Z.of_nat k) (ops ++ [TRem p]) -> Z.of_nat k + adds ops <= 2 ^ 32 ->
  trun dl (tracker_init k) ops = Ok t ->
  exists g t', packed_to_global dl t p = Ok g /\ tracker_remove_group dl t p = Ok t' /\
    forall h, live dl t' h <-> live dl t h /\ h <> g.
Proof.
  intros Hl Hb Hr. destruct (legal_tsteps _ (first_ids k) (Z.of_nat k)
    ltac:(rewrite len_first; exact Hl)) as (ids' & Hs).
  destruct (tsteps_app _ _ _ _ Hs) as ([ids n] & Hs1 & Hs2).
  pose proof (tsteps_mono _ _ _ Hs1) as Hm. simpl in Hm.
  pose proof (adds_nonneg ops).
  destruct (tsteps_ok dl _ _ _ Hs1 (tracker_init k) (init_inv k ltac:(lia))) as (t1 & E & Ht);
    [simpl; lia|]. rewrite E in Hr. injection Hr as ->. simpl in Ht.
  rewrite adds_app in Hs2. simpl in Hs2. rewrite Z.add_0_r in Hs2.
  inversion Hs2 as [|s o s1 ops2 s2 Hst Hnil]; subst. inversion Hnil; subst.
  destruct (tstep_ok dl _ _ _ _ _ _ Ht Hst) as (t' & E' & Ht'); [lia|]. simpl in E'.
  pose proof (ti_nodup _ _ _ Ht) as Hnd.
  inversion Hst; subst.
  - exists g, t'. split; [|split; [exact E'|]].
    + destruct (inv_obs dl _ _ _ Ht) as (_ & _ & C & _). apply C; [lia|].
      rewrite Nat2Z.id, nth_error_app2, Nat.sub_diag by lia. reflexivity.
    + intro h. rewrite (inv_live dl _ _ _ Ht' h), (inv_live dl _ _ _ Ht h).
      assert (HP : Permutation (pre ++ g :: mid ++ [last]) (g :: pre ++ last :: mid)).
      { rewrite <- (Permutation_cons_append mid last), <- Permutation_middle. reflexivity. }
      rewrite HP in Hnd. apply NoDup_cons in Hnd. destruct Hnd as [Hg _].
      rewrite elem_of_list_In in Hg. split.
      * intro Hi. split; [apply (Permutation_in _ (Permutation_sym HP)); right; exact Hi|].
        intros ->. auto.
      * intros [Hi Hne]. apply (Permutation_in _ HP) in Hi. destruct Hi; [congruence|auto].
  - exists g, t'. split; [|split; [exact E'|]].
    + destruct (inv_obs dl _ _ _ Ht) as (_ & _ & C & _). apply C; [lia|].
      rewrite Nat2Z.id, nth_error_app2, Nat.sub_diag by lia. reflexivity.
    + intro h. rewrite (inv_live dl _ _ _ Ht' h), (inv_live dl _ _ _ Ht h).
      apply NoDup_app in Hnd. destruct Hnd as (_ & Hd & _). rewrite in_app_iff. simpl. split.
      * intro Hi. split; [auto|]. intros ->. apply (Hd g); [apply elem_of_list_In; auto|left].
      * intros [[Hi|[Hi|[]]] Hne]; [auto|congruence].
Qed.

(** 2^32 creations. *)
Fixpoint churn (n : nat) : list top :=
  match n with O => [] | S n' => TAdd :: TRem 1 :: churn n' end.

Lemma churn_run dl m : forall n, 1 <= n -> n + Z.of_nat m <= 2 ^ 32 ->
  trun dl (mk_tracker [0] {[ 0 := 0 ]} n) (churn m) = Ok (mk_tracker [0] {[ 0 := 0 ]} (n + Z.of_nat m)).
Proof.
  induction m as [|m IH]; intros n Hn Hm.
  - simpl. now rewrite Z.add_0_r.
  - cbn [churn trun trun1 obind].
    assert (Hu : u32 n = n) by (apply Z.mod_small; lia).
    unfold tracker_add_group, packed_size. cbn [p2g g2p gsize length]. rewrite Hu.
    change (u32 (Z.of_nat 1)) with 1.
    rewrite lookup_singleton_ne by lia.
    unfold tracker_remove_group, packed_size. cbn [p2g g2p gsize]. unfold packed_add.
    change (Z.to_nat 1) with 1%nat.
    rewrite dassert_at_true by reflexivity. cbn [obind app vget nth_error].
    rewrite dassert_at_true by (apply Z.ltb_lt; lia). cbn [obind].
    rewrite (packed_remove_last dl [0] n : packed_remove dl [0; n] 1 = Ok [0]). cbn [obind length].
    change (1 =? Z.of_nat 1) with true. cbn iota.
    rewrite delete_insert by (apply lookup_singleton_ne; lia).
    etransitivity; [apply (IH (n + 1)); lia|]. do 2 f_equal. lia.
Qed.

Lemma ids_collide dl :
  exists ops t, legal 1 ops /\ trun dl (tracker_init 1) ops = Ok t /\
    packed_size t = 2 /\
    packed_to_global dl t 0 = Ok 0 /\ packed_to_global dl t 1 = Ok 0.
Proof.
  set (m := Z.to_nat (2 ^ 32 - 1)).
  assert (Hm : Z.of_nat m = 2 ^ 32 - 1) by (unfold m; lia). clearbody m.
  exists (churn m ++ [TAdd]), (mk_tracker [0; 0] {[ 0 := 0 ]} (2 ^ 32 + 1)).
  assert (Hleg : forall k, legal 1 (churn k ++ [TAdd])).
  { induction k as [|k IH]; [simpl; auto|]. cbn [churn app legal]. split; [lia|].
    replace (1 + 1 - 1) with 1 by lia. exact IH. }
  split; [apply Hleg|]. split; [|split; [reflexivity|]].
  - assert (Happ : forall ops1 ops2 t0, trun dl t0 (ops1 ++ ops2) =
      obind (trun dl t0 ops1) (fun t => trun dl t ops2)).
    { induction ops1 as [|o ops1 IH]; intros ops2 t0; simpl; [reflexivity|].
      destruct (trun1 dl t0 o); simpl; auto. }
    rewrite Happ.
    change (tracker_init 1) with (mk_tracker [0] {[ 0 := 0 ]} 1).
    rewrite churn_run by lia. cbn [obind]. rewrite Hm.
    replace (1 + (2 ^ 32 - 1)) with (2 ^ 32) by lia. cbn [trun trun1 obind].
    unfold tracker_add_group, packed_size. cbn [p2g g2p gsize length].
    change (u32 (2 ^ 32)) with 0. change (u32 (Z.of_nat 1)) with 1.
    rewrite lookup_singleton. reflexivity.
  - unfold packed_to_global, packed_size. cbn [p2g gsize length].
    change (vget [0; 0] (Z.to_nat 0)) with (Ok 0). change (vget [0; 0] (Z.to_nat 1)) with (Ok 0).
    split; repeat (rewrite dassert_at_true by reflexivity; cbn [obind]); reflexivity.
Qed.
