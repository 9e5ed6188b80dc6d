(** The sampling programs of examples/mixture/main.py keep assignments and groups in step. *)
From Coq Require Import Permutation Reals Lra.
From Verif.spec Require Import DriverSpec TrackerSpec GroupSpec SlaveSpec SystemSpec.
From Verif.model Require Import Base Packed Num Driver DriverRun PitmanYor PitmanYorRun IdTracker TrackerRun Component Slave SlaveRun System.
From Verif.proof Require Import BaseProof VectorProof PackedProof LoopProof SlaveProof DriverProof PitmanYorProof TrackerProof.
From stdpp Require Import gmap.
From Verif.proof Require Import FeatureProof SystemProof.
Local Open Scope Z_scope.

Section C.
  Context {W F : Type} {N : Num F}.
  Variables (dl : nat) (ok : W -> Prop) (m : py F) (feats : list (feature W F)) (data : list W).
  Hypothesis (Hdata : List.Forall ok data) (Hlen : Z.of_nat (length data) < 2 ^ 31).

  (** The rows [xs] of group [g] are those assigned to it. *)
  Definition members (a : gmap nat Z) (g : Z) (xs : list W) : Prop :=
    exists is, List.NoDup is /\ (forall i, In i is <-> a !! i = Some g) /\ List.Forall2 (fun i w => nth_error data i = Some w) is xs.
  Record cinv (c : client W F) (L : list (Z * list W)) (n : Z) (seated : list nat) : Prop := {
    ci_sys : sinv dl ok m feats (cl_sys c) L n;
    ci_members : forall g xs, In (g, xs) L -> members (cl_assign c) g xs;
    ci_live : forall i g, cl_assign c !! i = Some g -> In g (map fst L);
    ci_seated : forall i, In i seated <-> exists g, cl_assign c !! i = Some g;
    ci_nodup : List.NoDup seated;
    ci_range : forall i, In i seated -> (i < length data)%nat;
    ci_rows : rows_in L = length seated }.

  Lemma seated_bound c L n seated : cinv c L n seated -> (length seated <= length data)%nat.
  Proof.
    intro H. rewrite <- (seq_length (length data) 0). apply NoDup_incl_length; [apply (ci_nodup _ _ _ _ H)|].
    intros i Hi. apply in_seq. pose proof (ci_range _ _ _ _ H i Hi). lia.
  Qed.
  Lemma rows_mid (L1 : list (Z * list W)) g xs L2 : rows_in (L1 ++ (g, xs) :: L2) = (length xs + rows_in (L1 ++ L2))%nat.
  Proof. unfold rows_in. rewrite !map_app, !concat_app, !app_length. cbn [map concat snd]. rewrite app_length. lia. Qed.
  Lemma data_ok i w : nth_error data i = Some w -> ok w.
  Proof. intro E. rewrite List.Forall_forall in Hdata. eapply Hdata, nth_error_In, E. Qed.
  Lemma ids_nodup s L n : sinv dl ok m feats s L n -> List.NoDup (map fst L).
  Proof. intro H. apply NoDup_ListNoDup. exact (ti_nodup _ _ _ (si_track _ _ _ _ _ _ _ H)). Qed.
  Lemma other_id s L1 g xs L2 n g' ys : sinv dl ok m feats s (L1 ++ (g, xs) :: L2) n -> In (g', ys) (L1 ++ L2) -> g' <> g.
  Proof.
    intros H Hi ->. apply ids_nodup in H. rewrite map_app in H. cbn [map fst] in H. apply List.NoDup_remove_2 in H. apply H.
    rewrite <- map_app. apply in_map_iff. exists (g, ys). now split.
  Qed.
  Lemma members_insert a i g xs w : a !! i = None -> nth_error data i = Some w -> members a g xs -> members (<[i := g]> a) g (w :: xs).
  Proof.
    intros Ha Hw (is & Nd & Hi & F2). exists (i :: is). split; [|split; [|now constructor]].
    - constructor; [|exact Nd]. intro X. apply Hi in X. congruence.
    - intro j. cbn [In]. destruct (PeanoNat.Nat.eq_dec i j) as [->|Hn].
      + rewrite lookup_insert. split; auto.
      + rewrite lookup_insert_ne by exact Hn. rewrite Hi. intuition congruence.
  Qed.
  Lemma members_insert_ne a i g g' xs : a !! i = None -> g' <> g -> members a g' xs -> members (<[i := g]> a) g' xs.
  Proof.
    intros Ha Hg (is & Nd & Hi & F2). exists is. split; [exact Nd|]. split; [|exact F2]. intro j. rewrite Hi.
    destruct (PeanoNat.Nat.eq_dec i j) as [->|Hn].
    - rewrite lookup_insert. split; congruence.
    - now rewrite lookup_insert_ne by exact Hn.
  Qed.
  Lemma members_new (a : gmap nat Z) n : (forall i, a !! i <> Some n) -> members a n [].
  Proof. intro H. exists []. split; [constructor|]. split; [|constructor]. intro i. split; [intros []|]. intro E. now apply H in E. Qed.

  Lemma pre_score c L n seated w : cinv c L n seated -> ok w -> L <> [] ->
    exists sc, sys_score_value dl m (cl_sys c) w (length (counts (cdriver (sy_py (cl_sys c))))) = Ok sc /\ length sc = length L.
  Proof.
    intros H Hw Hne. pose proof (ci_sys _ _ _ _ H) as Hs. unfold sys_score_value.
    rewrite (py_score_value_ok dl m _ (si_py _ _ _ _ _ _ _ Hs)). cbn [obind].
    match goal with |- exists sc, feats_score _ _ _ ?x = _ /\ _ => destruct (feats_score_ok dl ok (map snd L) w
      (ok_fine _ _ _ (si_ok _ _ _ _ _ _ _ Hs)) Hw (sy_feats (cl_sys c)) x (si_feats _ _ _ _ _ _ _ Hs)) as (r & E & Lr & _) end.
    { now rewrite map_length, (si_counts _ _ _ _ _ _ _ Hs), !map_length. }
    exists r. split; [exact E|]. now rewrite Lr, map_length.
  Qed.

  Lemma seat_at c L1 g xs L2 n seated i w : cinv c (L1 ++ (g, xs) :: L2) n seated -> nth_error data i = Some w -> ~ In i seated ->
    n + 1 <= 2 ^ 32 ->
    exists s' L2' n', sys_add_value dl m (cl_sys c) (length L1) w = Ok s' /\
      packed_to_global dl (sy_track s') (Z.of_nat (length L1)) = Ok g /\
      cinv (mk_client s' (<[i := g]> (cl_assign c))) (L1 ++ (g, w :: xs) :: L2') n' (i :: seated) /\ n <= n' <= n + 1 /\
      (L2' = L2 \/ L2' = L2 ++ [(n, [])]).
  Proof.
    intros H Hw Hi Hn. pose proof (ci_sys _ _ _ _ H) as Hs. pose proof (data_ok i w Hw) as Okw.
    assert (Ha : cl_assign c !! i = None).
    { destruct (cl_assign c !! i) as [g'|] eqn:E; [|reflexivity]. exfalso. apply Hi. apply (ci_seated _ _ _ _ H). eauto. }
    pose proof (ci_range _ _ _ _ H) as Hr. pose proof (ci_rows _ _ _ _ H) as Hrows. pose proof (seated_bound _ _ _ _ H) as Hb.
    assert (Hil : (i < length data)%nat) by (apply nth_error_Some; congruence).
    assert (Hb' : (S (length seated) <= length data)%nat).
    { change (length (i :: seated) <= length data)%nat. rewrite <- (seq_length (length data) 0). apply NoDup_incl_length.
      - constructor; [exact Hi|apply (ci_nodup _ _ _ _ H)].
      - intros j [<-|Hj]; apply in_seq; [lia|]. specialize (Hr j Hj). lia. }
    destruct (si_ok _ _ _ _ _ _ _ Hs) as (O1 & O2 & O3). cbn [fst snd] in *.
    assert (Hx : List.Forall ok xs). { apply List.Forall_app in O1 as [_ O1]. now inversion O1. }
    assert (Omid : forall L2', List.Forall (fun g => List.Forall ok (snd g)) L2' ->
              List.Forall (fun g => List.Forall ok (snd g)) (L1 ++ (g, w :: xs) :: L2')).
    { intros L2' HL. apply List.Forall_app in O1 as [O1 O1']. apply List.Forall_app. split; [exact O1|]. constructor; [now constructor|exact HL]. }
    assert (O1b : List.Forall (fun g => List.Forall ok (snd g)) L2). { apply List.Forall_app in O1 as [_ O1]. now inversion O1. }
    rewrite rows_mid in Hrows.
    assert (Hold : forall g' ys, In (g', ys) (L1 ++ L2) -> members (<[i := g]> (cl_assign c)) g' ys).
    { intros g' ys Hg'. apply members_insert_ne; [exact Ha|eapply other_id; eauto|]. apply (ci_members _ _ _ _ H).
      apply in_app_iff in Hg'. apply in_app_iff. cbn [In]. tauto. }
    assert (Hnew : members (<[i := g]> (cl_assign c)) g (w :: xs)).
    { apply members_insert; auto. apply (ci_members _ _ _ _ H). apply in_app_iff. right. now left. }
    assert (Hseat : forall j, In j (i :: seated) <-> exists g', <[i := g]> (cl_assign c) !! j = Some g').
    { intro j. cbn [In]. destruct (PeanoNat.Nat.eq_dec i j) as [->|Hj].
      - rewrite lookup_insert. split; [eauto|auto].
      - rewrite lookup_insert_ne by exact Hj. rewrite (ci_seated _ _ _ _ H). intuition congruence. }
    assert (Hlive : forall L2', (forall x, In x L2 -> In x L2') -> forall j g', <[i := g]> (cl_assign c) !! j = Some g' -> In g' (map fst (L1 ++ (g, w :: xs) :: L2'))).
    { intros L2' Hsub j g' E. destruct (PeanoNat.Nat.eq_dec i j) as [->|Hj].
      - rewrite lookup_insert in E. injection E as <-. rewrite map_app. apply in_app_iff. right. now left.
      - rewrite lookup_insert_ne in E by exact Hj. apply (ci_live _ _ _ _ H) in E. apply in_map_iff in E as ([g1 ys] & <- & E). cbn [fst].
        apply in_app_iff in E as [E|[E|E]].
        + apply in_map_iff. exists (g1, ys). split; [reflexivity|]. apply in_app_iff. now left.
        + injection E as -> _. rewrite map_app. apply in_app_iff. right. now left.
        + apply in_map_iff. exists (g1, ys). split; [reflexivity|]. apply in_app_iff. right. right. now apply Hsub. }
    destruct xs as [|x xs].
    - assert (Rw : rows_in (L1 ++ (g, [w]) :: L2 ++ [(n, [])]) = S (length seated)).
      { rewrite rows_mid. cbn [length]. cbn [length] in Hrows. rewrite <- Hrows. f_equal. unfold rows_in. rewrite !map_app, !concat_app. cbn [map concat snd]. now rewrite !app_nil_r. }
      destruct (step_add_first dl ok m feats (cl_sys c) L1 g L2 n w Hs) as (s' & E & Is).
      { split; [|split]; cbn [fst snd]; [|rewrite Rw; lia|exact Hn]. apply Omid. apply List.Forall_app. split; [exact O1b|repeat constructor]. }
      destruct (gid_packed dl ok m feats s' L1 g [w] _ _ Is) as [_ G].
      exists s', (L2 ++ [(n, [])]), (n + 1). split; [exact E|]. split; [exact G|]. split; [|split; [lia|now right]].
      split; cbn [cl_sys cl_assign]; auto.
      + intros g' ys Hin. apply in_app_iff in Hin as [Hin|[Hin|Hin]].
        * apply Hold, in_app_iff. now left.
        * injection Hin as <- <-. exact Hnew.
        * apply in_app_iff in Hin as [Hin|[Hin|[]]]; [apply Hold, in_app_iff; now right|]. injection Hin as <- <-. apply members_new.
          intros j Ej. assert (X : In n (map fst (L1 ++ (g, []) :: L2))).
          { destruct (PeanoNat.Nat.eq_dec i j) as [->|Hj].
            - rewrite lookup_insert in Ej. injection Ej as <-. rewrite map_app. apply in_app_iff. right. now left.
            - rewrite lookup_insert_ne in Ej by exact Hj. now apply (ci_live _ _ _ _ H) in Ej. }
          apply (ti_range _ _ _ (si_track _ _ _ _ _ _ _ Hs)) in X. lia.
      + intros j g' Ej. apply (Hlive (L2 ++ [(n, [])])) with (j := j); [|exact Ej]. intros y Hy. apply in_app_iff. now left.
      + constructor; [exact Hi|apply (ci_nodup _ _ _ _ H)].
      + intros j [<-|Hj]; [exact Hil|now apply Hr].
    - assert (Rw : rows_in (L1 ++ (g, w :: x :: xs) :: L2) = S (length seated)).
      { rewrite rows_mid. cbn [length] in *. lia. }
      destruct (step_add_more dl ok m feats (cl_sys c) L1 g (x :: xs) L2 n w Hs ltac:(discriminate)) as (s' & E & Is).
      { split; [|split]; cbn [fst snd]; [now apply Omid|rewrite Rw; lia|lia]. }
      destruct (gid_packed dl ok m feats s' L1 g (w :: x :: xs) _ _ Is) as [_ G].
      exists s', L2, n. split; [exact E|]. split; [exact G|]. split; [|split; [lia|now left]].
      split; cbn [cl_sys cl_assign]; auto.
      + intros g' ys Hin. apply in_app_iff in Hin as [Hin|[Hin|Hin]].
        * apply Hold, in_app_iff. now left.
        * injection Hin as <- <-. exact Hnew.
        * apply Hold, in_app_iff. now right.
      + intros j g' Ej. now apply (Hlive L2) with (j := j).
      + constructor; [exact Hi|apply (ci_nodup _ _ _ _ H)].
      + intros j [<-|Hj]; [exact Hil|now apply Hr].
  Qed.

  Lemma groups_exist c L n seated : cinv c L n seated -> L <> [].
  Proof.
    intro H. pose proof (ci_sys _ _ _ _ H) as [[[_ _ Hz _ _] _] Hc _ _ _ _]. rewrite Hc in Hz. intros ->. destruct Hz.
  Qed.
  Lemma seat_ok c L n seated i w pick : cinv c L n seated -> nth_error data i = Some w -> ~ In i seated -> n + 1 <= 2 ^ 32 ->
    (forall scores, scores <> [] -> (pick scores < length scores)%nat) ->
    exists c' L' n', client_run1 dl m data c (Seat i pick) = Ok c' /\ cinv c' L' n' (i :: seated) /\ n <= n' <= n + 1.
  Proof.
    intros H Hw Hi Hn Hp. pose proof (groups_exist _ _ _ _ H) as Hne.
    cbn [client_run1]. unfold vget. rewrite Hw. cbn [obind]. unfold client_seat.
    destruct (pre_score c L n seated w H (data_ok i w Hw) Hne) as (sc & -> & Lsc). cbn [obind].
    assert (Hlt : (pick sc < length L)%nat).
    { rewrite <- Lsc. apply Hp. intros ->. destruct L; [congruence|discriminate]. }
    set (p := pick sc) in *. destruct (nth_error L p) as [[g xs]|] eqn:En; [|apply nth_error_None in En; lia].
    apply nth_error_split in En as (L1 & L2 & -> & <-).
    destruct (seat_at c L1 g xs L2 n seated i w H Hw Hi Hn) as (s' & L2' & n' & E & G & I & B & _).
    rewrite E. cbn [obind]. rewrite G. cbn [obind]. eauto 10.
  Qed.

  Lemma members_delete a i g is1 is2 xs1 w xs2 : List.NoDup (is1 ++ i :: is2) -> (forall j, In j (is1 ++ i :: is2) <-> a !! j = Some g) ->
    List.Forall2 (fun i w => nth_error data i = Some w) is1 xs1 -> List.Forall2 (fun i w => nth_error data i = Some w) is2 xs2 ->
    nth_error data i = Some w -> members (delete i a) g (xs1 ++ xs2).
  Proof.
    intros Nd Hi F1 F2 Hw. exists (is1 ++ is2). split; [now apply List.NoDup_remove_1 in Nd|]. split; [|now apply Forall2_app].
    intro j. destruct (PeanoNat.Nat.eq_dec i j) as [->|Hj].
    - rewrite lookup_delete. apply List.NoDup_remove_2 in Nd. split; [tauto|discriminate].
    - rewrite lookup_delete_ne by exact Hj. rewrite <- Hi, !in_app_iff. cbn [In]. intuition congruence.
  Qed.
  Lemma members_delete_ne a i g g' xs : a !! i = Some g -> g' <> g -> members a g' xs -> members (delete i a) g' xs.
  Proof.
    intros Ha Hg (is & Nd & Hi & F2). exists is. split; [exact Nd|]. split; [|exact F2]. intro j. rewrite Hi.
    destruct (PeanoNat.Nat.eq_dec i j) as [->|Hn].
    - rewrite lookup_delete. split; congruence.
    - now rewrite lookup_delete_ne by exact Hn.
  Qed.

  Lemma unseat_ok c L n a i b w : cinv c L n (a ++ i :: b) -> nth_error data i = Some w ->
    exists c' L', client_run1 dl m data c (Unseat i) = Ok c' /\ cinv c' L' n (a ++ b).
  Proof.
    intros H Hw. pose proof (ci_sys _ _ _ _ H) as Hs. cbn [client_run1]. unfold vget. rewrite Hw. cbn [obind]. unfold client_unseat.
    assert (exists g, cl_assign c !! i = Some g) as [g Ha]. { apply (ci_seated _ _ _ _ H). apply in_app_iff. right. now left. }
    rewrite Ha. pose proof (ci_live _ _ _ _ H i g Ha) as Hg. apply in_map_iff in Hg as ([g' xs] & E & Hg). cbn [fst] in E. subst g'.
    pose proof (ci_members _ _ _ _ H g xs Hg) as (is & Nd & His & F2).
    assert (Hii : In i is) by now apply His. apply in_split in Hii as (is1 & is2 & ->).
    apply Forall2_app_inv_l in F2 as (xs1 & r & F1 & F2 & ->). inversion F2 as [|? w' ? xs2 Ew F2']; subst.
    rewrite Hw in Ew. injection Ew as <-.
    apply in_split in Hg as (L1 & L2 & ->).
    destruct (gid_packed dl ok m feats _ L1 g _ L2 n Hs) as [G _]. rewrite G. cbn [obind]. rewrite Nat2Z.id.
    destruct (si_ok _ _ _ _ _ _ _ Hs) as (O1 & O2 & O3). cbn [fst snd] in *.
    pose proof (ci_rows _ _ _ _ H) as Hrows. rewrite rows_mid, !app_length in Hrows. cbn [length] in Hrows.
    assert (Hx : List.Forall ok (xs1 ++ w :: xs2)). { apply List.Forall_app in O1 as [_ O1]. now inversion O1. }
    assert (Hx' : List.Forall ok (xs1 ++ xs2)).
    { apply List.Forall_app in Hx as [X1 X2]. apply List.Forall_app. split; [exact X1|]. now inversion X2. }
    assert (OL : List.Forall (fun g => List.Forall ok (snd g)) L1 /\ List.Forall (fun g => List.Forall ok (snd g)) L2).
    { apply List.Forall_app in O1 as [X1 X2]. split; [exact X1|]. now inversion X2. }
    assert (Hold : forall g' ys, In (g', ys) (L1 ++ L2) -> members (delete i (cl_assign c)) g' ys).
    { intros g' ys Hg'. apply (members_delete_ne _ _ g); [exact Ha|eapply other_id; eauto|]. apply (ci_members _ _ _ _ H).
      apply in_app_iff in Hg'. apply in_app_iff. cbn [In]. tauto. }
    assert (Hnew : members (delete i (cl_assign c)) g (xs1 ++ xs2)) by (eapply members_delete; eauto).
    pose proof (ci_nodup _ _ _ _ H) as Nds.
    assert (Hseat : forall j, In j (a ++ b) <-> exists g', delete i (cl_assign c) !! j = Some g').
    { intro j. destruct (PeanoNat.Nat.eq_dec i j) as [->|Hj].
      - rewrite lookup_delete. apply List.NoDup_remove_2 in Nds. split; [tauto|intros [? ?]; discriminate].
      - rewrite lookup_delete_ne by exact Hj. rewrite <- (ci_seated _ _ _ _ H), !in_app_iff. cbn [In]. intuition congruence. }
    assert (Hrange : forall j, In j (a ++ b) -> (j < length data)%nat).
    { intros j Hj. apply (ci_range _ _ _ _ H). rewrite in_app_iff in *. cbn [In]. tauto. }
    assert (Hlive : forall j g', delete i (cl_assign c) !! j = Some g' -> In g' (map fst (L1 ++ (g, xs1 ++ xs2) :: L2))).
    { intros j g' E. destruct (PeanoNat.Nat.eq_dec i j) as [->|Hj]; [rewrite lookup_delete in E; discriminate|].
      rewrite lookup_delete_ne in E by exact Hj. apply (ci_live _ _ _ _ H) in E. rewrite map_app in *. exact E. }
    apply List.NoDup_remove_1 in Nds.
    destruct (xs1 ++ xs2) as [|x0 xs0] eqn:Ex.
    - apply app_eq_nil in Ex as [-> ->].
      destruct (step_rem_last dl ok m feats (cl_sys c) L1 g w L2 n Hs) as (s' & L' & E & Is & P).
      { split; [|split]; cbn [fst snd]; [now apply List.Forall_app|rewrite rows_mid in O2; lia|exact O3]. }
      rewrite E. cbn [obind]. eexists _, L'. split; [reflexivity|]. split; cbn [cl_sys cl_assign]; auto.
      + intros g' ys Hin. apply Hold. eapply Permutation_in; [apply Permutation_sym, P|exact Hin].
      + intros j g' Ej. pose proof (Hlive j g' Ej) as X. rewrite map_app in X. cbn [map fst] in X. apply in_app_iff in X. cbn [In] in X.
        eapply Permutation_in; [apply Permutation_map, P|]. rewrite map_app. apply in_app_iff.
        destruct X as [X|[X|X]]; [now left| |now right]. subst g'.
        destruct Hnew as (is & _ & Hi & F3). inversion F3; subst. now apply Hi in Ej.
      + rewrite <- (rows_perm _ _ P). rewrite app_length. cbn [length] in Hrows. lia.
    - destruct (step_rem_some dl ok m feats (cl_sys c) L1 g xs1 w xs2 L2 n Hs) as (s' & E & Is).
      { rewrite Ex. discriminate. }
      { split; [|split]; cbn [fst snd]; [|rewrite rows_mid in *; rewrite app_length in *; cbn [length] in *; lia|exact O3].
        apply List.Forall_app. split; [apply OL|]. constructor; [cbn [snd]; now rewrite Ex|apply OL]. }
      rewrite Ex in Is. rewrite E. cbn [obind]. eexists _, (L1 ++ (g, x0 :: xs0) :: L2). split; [reflexivity|]. split; cbn [cl_sys cl_assign]; auto.
      + intros g' ys Hin. apply in_app_iff in Hin as [Hin|[Hin|Hin]].
        * apply Hold, in_app_iff. now left.
        * injection Hin as <- <-. exact Hnew.
        * apply Hold, in_app_iff. now right.
      + rewrite rows_mid, <- Ex, !app_length. lia.
  Qed.

  Lemma client_ok_n ops : forall c L n seated seated', cinv c L n seated -> plan (length data) seated ops seated' ->
    n + seats ops <= 2 ^ 32 ->
    exists c' L' n', client_run dl m data c ops = Ok c' /\ cinv c' L' n' seated' /\ n' <= n + seats ops.
  Proof.
    assert (Hs0 : forall ops : list (cop F), 0 <= seats ops).
    { induction ops0 as [|[i p|i] ops0 IH]; cbn [seats]; lia. }
    induction ops as [|o ops IH]; intros c L n seated seated' H Hp Hn; inversion Hp as [|? i pick ? ? Hi Hni Hpick Hr|a i b ? ? Hr]; subst; cbn [client_run].
    - exists c, L, n. cbn [seats]. split; [reflexivity|]. split; [exact H|lia].
    - destruct (nth_error data i) as [w|] eqn:Hw; [|apply nth_error_None in Hw; lia].
      cbn [seats] in *. pose proof (Hs0 ops).
      destruct (seat_ok c L n seated i w pick H Hw Hni ltac:(lia) Hpick) as (c1 & L1 & n1 & E & I & B). rewrite E. cbn [obind].
      destruct (IH c1 L1 n1 (i :: seated) seated' I Hr ltac:(lia)) as (c' & L' & n' & E' & I' & B').
      exists c', L', n'. split; [exact E'|]. split; [exact I'|lia].
    - assert (Hi : (i < length data)%nat). { apply (ci_range _ _ _ _ H). apply in_app_iff. right. now left. }
      destruct (nth_error data i) as [w|] eqn:Hw; [|apply nth_error_None in Hw; lia].
      destruct (unseat_ok c L n a i b w H Hw) as (c1 & L1 & E & I). rewrite E. cbn [obind seats]. now apply (IH c1 L1 n (a ++ b)).
  Qed.
  Lemma client_ok ops c L n seated seated' : cinv c L n seated -> plan (length data) seated ops seated' ->
    n + seats ops <= 2 ^ 32 ->
    exists c' L' n', client_run dl m data c ops = Ok c' /\ cinv c' L' n' seated'.
  Proof. intros H Hp Hn. destruct (client_ok_n ops c L n seated seated' H Hp Hn) as (c' & L' & n' & E & I & _). eauto. Qed.
  Lemma client_start s L n : sinv dl ok m feats s L n -> rows_in L = 0%nat -> cinv (mk_client s ∅) L n [].
  Proof.
    intros H H0. split; cbn [cl_sys cl_assign]; auto.
    - intros g xs Hi. apply in_split in Hi as (L1 & L2 & ->). rewrite rows_mid in H0. destruct xs; [|cbn in H0; lia].
      apply members_new. intro i. now rewrite lookup_empty.
    - intros i g E. now rewrite lookup_empty in E.
    - intro i. split; [intros []|intros [g E]; now rewrite lookup_empty in E].
    - constructor.
    - intros i [].
  Qed.
End C.
