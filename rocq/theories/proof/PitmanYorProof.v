From Verif.model Require Import Base Packed Driver DriverRun Num PitmanYor PitmanYorRun.
From Verif.spec Require Import DriverSpec.
From Verif.proof Require Import BaseProof PackedProof DriverProof.
From stdpp Require Import gmap.

Section PYP.
  Context {F : Type} {N : Num F}.

  Definition fE (m : py F) (cs : list Z) : F :=
    nlog (ndiv (nadd (alpha m) (nmul (disc m) (nof (Z.of_nat (length cs) - Z.of_nat (num_empty cs))%Z)))
               (nof (Z.of_nat (num_empty cs)))).
  Definition fN (m : py F) (c : Z) : F := nlog (nsub (nof c) (disc m)).
  Definition fS (m : py F) (x : F) (c : Z) : F := if (c =? 0)%Z then x else fN m c.

  Record pyinv (m : py F) (c : cached F) : Prop := {
    pi_d : dinv (cdriver c);
    pi_s : shifted c = map (fS m (fE m (counts (cdriver c)))) (counts (cdriver c)) }.

  Fixpoint overlay (x : F) (cs : list Z) (s : list F) : list F :=
    match cs, s with
    | c :: cs', y :: s' => (if (c =? 0)%Z then x else y) :: overlay x cs' s'
    | _, _ => s
    end.

  Lemma overlay_app x a b s t : length a = length s ->
    overlay x (a ++ b) (s ++ t) = overlay x a s ++ overlay x b t.
  Proof. revert s; induction a as [|c a IH]; intros [|y s] H; simpl in *; try lia; [reflexivity|].
         now rewrite IH by lia. Qed.
  Lemma overlay_map m x y cs : overlay x cs (map (fS m y) cs) = map (fS m x) cs.
  Proof. induction cs as [|c cs IH]; simpl; [reflexivity|]. f_equal; [|apply IH].
         unfold fS. destruct (c =? 0)%Z; reflexivity. Qed.
  Lemma length_overlay x cs s : length (overlay x cs s) = length s.
  Proof. revert s; induction cs as [|c cs IH]; intros [|y s]; simpl; auto. Qed.
  Lemma nth_overlay x cs : forall s i, length s = length cs ->
    nth_error (overlay x cs s) i =
      match nth_error cs i with Some 0%Z => Some x | _ => nth_error s i end.
  Proof.
    induction cs as [|c cs IH]; intros [|y s] [|i] H; simpl in *; try lia; try reflexivity.
    - destruct (Z.eqb_spec c 0) as [->|Hc]; [reflexivity|]. destruct c; congruence.
    - apply IH. lia.
  Qed.

  Lemma nth_error_ext {A : Type} : forall (l1 l2 : list A), (forall i, nth_error l1 i = nth_error l2 i) -> l1 = l2.
  Proof.
    induction l1 as [|a l1 IH]; intros [|b l2] H; auto.
    - specialize (H 0); discriminate.
    - specialize (H 0); discriminate.
    - pose proof (H 0) as H0. injection H0 as ->. f_equal. apply IH. intro i. apply (H (S i)).
  Qed.

  Lemma set_all_ok (x : F) (ids : list nat) : forall l : list F, (forall i, In i ids -> i < length l) ->
    exists l', set_all l ids x = Ok l' /\ length l' = length l /\
      (forall i, In i ids -> nth_error l' i = Some x) /\
      (forall i, ~ In i ids -> nth_error l' i = nth_error l i).
  Proof.
    induction ids as [|j ids IH]; intros l H; simpl.
    - exists l. tauto.
    - unfold vset. destruct (Nat.ltb_spec j (length l)) as [Hj|Hj]; [|specialize (H j (or_introl eq_refl)); lia].
      cbn [obind]. destruct (IH (upd l j x)) as (l' & E & L & A & B).
      { intros i Hi. rewrite length_upd. apply H. right; auto. }
      rewrite length_upd in L. exists l'. split; [exact E|]. split; [exact L|]. split.
      + intros i [->|Hi]; [|auto]. destruct (in_dec Nat.eq_dec i ids) as [Hi|Hi]; [auto|].
        rewrite B by auto. now apply nth_error_upd_eq.
      + intros i Hi. rewrite B by tauto. apply nth_error_upd_ne. intros ->. tauto.
  Qed.

  Lemma update_empty_ok m d s : dinv d -> length s = length (counts d) ->
    update_empty m (mk_cached d s) = Ok (mk_cached d (overlay (fE m (counts d)) (counts d) s)).
  Proof.
    intros Hd Hl. unfold update_empty. cbn [cdriver shifted].
    pose proof (empties_size _ _ (dinv_empties _ Hd)) as Hs. rewrite Hs. fold (fE m (counts d)).
    destruct (set_all_ok (fE m (counts d)) (elements (empties d)) s) as (l' & E & L & A & B).
    { intros i Hi. apply elem_of_list_In, elem_of_elements in Hi. apply (dinv_empties _ Hd) in Hi.
      rewrite Hl. apply nth_error_Some. congruence. }
    rewrite E. cbn [obind]. do 2 f_equal. apply nth_error_ext. intro i.
    rewrite nth_overlay by auto.
    destruct (nth_error (counts d) i) as [[|p|p]|] eqn:Ei.
    - apply A. apply elem_of_list_In, elem_of_elements, (dinv_empties _ Hd). exact Ei.
    - apply B. rewrite <- elem_of_list_In, elem_of_elements, (dinv_empties _ Hd). congruence.
    - apply B. rewrite <- elem_of_list_In, elem_of_elements, (dinv_empties _ Hd). congruence.
    - apply B. rewrite <- elem_of_list_In, elem_of_elements, (dinv_empties _ Hd). congruence.
  Qed.

  Lemma update_nonempty_ok dl m d pre c post s1 y s2 :
    counts d = pre ++ c :: post -> c <> 0%Z -> length s1 = length pre ->
    update_nonempty dl m (mk_cached d (s1 ++ y :: s2)) (length pre) =
      Ok (mk_cached d (s1 ++ fN m c :: s2)).
  Proof.
    intros Hc Hn Hl. unfold update_nonempty. cbn [cdriver shifted]. rewrite Hc, vget_app. cbn [obind].
    rewrite dassert_at_true by (destruct (Z.eqb_spec c 0); [congruence|reflexivity]). cbn [obind].
    rewrite <- Hl, vset_app. reflexivity.
  Qed.

  Lemma py_step_ok dl m c o l1 b :
    pyinv m c -> dstep (counts (cdriver c)) o l1 b -> (sum_sizes l1 < 2 ^ 31)%Z ->
    exists c1, pyrun1 dl m c o = Ok (c1, b) /\ pyinv m c1 /\ counts (cdriver c1) = l1.
  Proof.
    intros [Hd Hs] Hst Hb.
    destruct (step_ok dl _ _ _ _ Hd Hst Hb) as (d1 & R & Hd1 & Hc1).
    destruct c as [d s]. cbn [cdriver shifted] in *.
    pose proof (dstep_num_empty _ _ _ _ Hst) as HE.
    remember (counts d) as cs eqn:Ecs.
    destruct Hst as [pre c post n Hc Hn|pre post n Hn|pre c post n H0 Hn|pre n mid z Hn|pre n Hn];
      cbn [drun1 pyrun1] in *; unfold py_add, py_remove; cbn [cdriver shifted]; rewrite R; cbn [obind fst snd].
    - (* add to nonempty *)
      rewrite Hs, map_app. cbn [map].
      rewrite (update_nonempty_ok dl m d1 pre (c + n)%Z post) by (auto; try lia; now rewrite map_length).
      eexists. split; [reflexivity|]. split; [split; [exact Hd1|]|exact Hc1]. cbn [cdriver shifted].
      rewrite Hc1, map_app. cbn [map]. unfold fS at 4. destruct (Z.eqb_spec (c + n) 0); [lia|].
      replace (fE m (pre ++ (c + n)%Z :: post)) with (fE m (pre ++ c :: post)); [reflexivity|].
      unfold fE. rewrite HE, !app_length. reflexivity.
    - (* add to empty *)
      rewrite update_empty_ok; [|exact Hd1|].
      2:{ unfold packed_add. rewrite Hs, Hc1. rewrite !app_length, !map_length, !app_length. simpl.
          rewrite app_length. simpl. lia. }
      cbn [obind]. rewrite Hs, Hc1. set (E := fE m (pre ++ n :: post ++ [0%Z])).
      set (E0 := fE m (pre ++ 0%Z :: post)).
      unfold packed_add. rewrite map_app. cbn [map]. rewrite <- app_assoc. cbn [app].
      rewrite overlay_app by (now rewrite map_length). cbn [overlay].
      rewrite overlay_app by (now rewrite map_length). rewrite !overlay_map. cbn [overlay].
      rewrite (update_nonempty_ok dl m d1 pre n (post ++ [0%Z])) by (auto; try lia; now rewrite map_length).
      eexists. split; [reflexivity|]. split; [split; [exact Hd1|]|exact Hc1]. cbn [cdriver shifted].
      rewrite Hc1. fold E. rewrite map_app. cbn [map]. rewrite map_app. cbn [map].
      unfold fS at 4. destruct (Z.eqb_spec n 0); [lia|]. reflexivity.
    - (* remove some *)
      rewrite Hs, map_app. cbn [map].
      rewrite (update_nonempty_ok dl m d1 pre (c - n)%Z post) by (auto; try lia; now rewrite map_length).
      eexists. split; [reflexivity|]. split; [split; [exact Hd1|]|exact Hc1]. cbn [cdriver shifted].
      rewrite Hc1, map_app. cbn [map]. unfold fS at 4. destruct (Z.eqb_spec (c - n) 0); [lia|].
      replace (fE m (pre ++ (c - n)%Z :: post)) with (fE m (pre ++ c :: post)); [reflexivity|].
      unfold fE. rewrite HE, !app_length. reflexivity.
    - (* remove all, inner *)
      set (E0 := fE m (pre ++ n :: mid ++ [z])) in *.
      rewrite Hs, map_app. cbn [map]. rewrite map_app. cbn [map].
      replace (length pre) with (length (map (fS m E0) pre)) by apply map_length.
      rewrite packed_remove_inner. cbn [obind].
      rewrite update_empty_ok; [|exact Hd1|].
      2:{ rewrite Hc1, !app_length. simpl. now rewrite !map_length. }
      cbn [obind]. eexists. split; [reflexivity|]. split; [split; [exact Hd1|]|exact Hc1]. cbn [cdriver shifted].
      rewrite Hc1. rewrite <- (overlay_map m _ E0 (pre ++ z :: mid)) at 1. f_equal. rewrite map_app. reflexivity.
    - (* remove all, last *)
      set (E0 := fE m (pre ++ [n])) in *.
      rewrite Hs, map_app. cbn [map].
      replace (length pre) with (length (map (fS m E0) pre)) by apply map_length.
      rewrite packed_remove_last. cbn [obind].
      rewrite update_empty_ok; [|exact Hd1|].
      2:{ rewrite Hc1. now rewrite !map_length. }
      cbn [obind]. eexists. split; [reflexivity|]. split; [split; [exact Hd1|]|exact Hc1]. cbn [cdriver shifted].
      rewrite Hc1. apply overlay_map.
  Qed.

  Lemma init_loop_ok dl m d : forall k s, k <= length (counts d) -> length s = length (counts d) ->
    exists s', py_init_loop dl m (mk_cached d s) (seq (length (counts d) - k) k) = Ok (mk_cached d s') /\
      length s' = length s /\
      forall i, nth_error s' i =
        match nth_error (counts d) i with
        | Some c => if (c =? 0)%Z || (i <? length (counts d) - k) then nth_error s i else Some (fN m c)
        | None => nth_error s i
        end.
  Proof.
    induction k as [|k IH]; intros s Hk Hl.
    - exists s. split; [reflexivity|]. split; [reflexivity|]. intro i.
      destruct (nth_error (counts d) i) as [c|] eqn:E; [|reflexivity].
      assert (i < length (counts d)) by (apply nth_error_Some; congruence).
      destruct (Nat.ltb_spec i (length (counts d) - 0)); [|lia]. now rewrite orb_true_r.
    - set (j := length (counts d) - S k). cbn [seq py_init_loop].
      assert (Hj : j < length (counts d)) by (unfold j; lia).
      destruct (nth_error (counts d) j) as [c|] eqn:E.
      2:{ apply nth_error_None in E. lia. }
      unfold vget at 1. cbn [cdriver]. rewrite E. cbn [obind].
      replace (S j) with (length (counts d) - k) by (unfold j; lia).
      assert (Hrest : forall s0, length s0 = length (counts d) ->
        (forall i, nth_error s0 i = if (i =? j) && negb (c =? 0)%Z then Some (fN m c) else nth_error s i) ->
        exists s', py_init_loop dl m (mk_cached d s0) (seq (length (counts d) - k) k) = Ok (mk_cached d s') /\
          length s' = length s /\
          forall i, nth_error s' i =
            match nth_error (counts d) i with
            | Some c => if (c =? 0)%Z || (i <? j) then nth_error s i else Some (fN m c)
            | None => nth_error s i
            end).
      { intros s0 Hl0 Hs0. destruct (IH s0 ltac:(lia) Hl0) as (s' & Es & L & A). exists s'. split; [exact Es|].
        split; [congruence|]. intro i. rewrite A. destruct (nth_error (counts d) i) as [c'|] eqn:Ei.
        - rewrite Hs0. destruct (Nat.eqb_spec i j) as [->|Hij].
          + rewrite E in Ei. injection Ei as <-. rewrite Nat.ltb_irrefl, orb_false_r.
            destruct (Z.eqb_spec c 0); cbn [negb andb orb]; [reflexivity|].
            destruct (Nat.ltb_spec j (length (counts d) - k)); reflexivity.
          + cbn [andb]. replace (i <? length (counts d) - k) with (i <? j); [reflexivity|].
            unfold j. destruct (Nat.ltb_spec i (length (counts d) - S k)); destruct (Nat.ltb_spec i (length (counts d) - k)); auto; unfold j in *; lia.
        - rewrite Hs0. destruct (Nat.eqb_spec i j) as [->|Hij]; [congruence|reflexivity]. }
      destruct (Z.eqb_spec c 0) as [Hc|Hc].
      + cbn [obind]. apply Hrest; [auto|]. intro i. cbn [negb]. now rewrite andb_false_r.
      + unfold update_nonempty. cbn [cdriver shifted]. unfold vget. rewrite E. cbn [obind].
        rewrite dassert_at_true by (destruct (Z.eqb_spec c 0); [congruence|reflexivity]). cbn [obind].
        unfold vset. destruct (Nat.ltb_spec j (length s)); [|lia]. cbn [obind].
        apply Hrest; [now rewrite length_upd|]. intro i. cbn [negb]. rewrite andb_true_r.
        destruct (Nat.eqb_spec i j) as [->|Hij]; [now apply nth_error_upd_eq|].
        apply nth_error_upd_ne. auto.
  Qed.

  Lemma length_resize (l : list F) n : length (vresize l n) = n.
  Proof. unfold vresize. rewrite app_length, repeat_length, firstn_length. lia. Qed.

  Lemma py_init_ok dl m old cs : sizes_ok cs ->
    exists c, py_init dl m old cs = Ok c /\ pyinv m c /\ counts (cdriver c) = cs.
  Proof.
    intro H. destruct (init_ok dl cs H) as (d & E & Hd & Hc). unfold py_init. rewrite E. cbn [obind].
    destruct (init_loop_ok dl m d (length (counts d)) (vresize old (length (counts d))) ltac:(lia)
      (length_resize _ _)) as (s' & Es & L & A).
    rewrite Nat.sub_diag in Es. rewrite Es. cbn [obind].
    rewrite length_resize in L. rewrite update_empty_ok by auto.
    eexists. split; [reflexivity|]. split; [split; [exact Hd|]|exact Hc]. cbn [cdriver shifted].
    apply nth_error_ext. intro i. rewrite nth_overlay by auto. rewrite A, nth_error_map.
    destruct (nth_error (counts d) i) as [c|] eqn:Ei; cbn [option_map].
    - unfold fS. rewrite Nat.sub_diag. cbn [Nat.ltb Nat.leb]. rewrite orb_false_r.
      destruct c; reflexivity.
    - apply nth_error_None. apply nth_error_None in Ei. rewrite length_resize. exact Ei.
  Qed.

  Lemma py_run_ok dl m ops : forall c l bs, pyinv m c -> dhistory (counts (cdriver c)) ops l bs ->
    exists c', pyrun dl m c ops = Ok (c', bs) /\ pyinv m c' /\ counts (cdriver c') = l.
  Proof.
    induction ops as [|o ops IH]; intros c l bs Hc H; inversion H as [|l0 o0 l1 b0 ops0 l2 bs0 Hst Hb Hrest]; subst; cbn [pyrun].
    - eauto.
    - destruct (py_step_ok dl m c o _ _ Hc Hst Hb) as (c1 & -> & Hc1 & E1). cbn [obind fst snd].
      rewrite <- E1 in Hrest. destruct (IH _ _ _ Hc1 Hrest) as (c2 & -> & Hc2 & E2). cbn [obind fst snd]. eauto.
  Qed.

  Lemma py_score_value_ok dl m c : pyinv m c ->
    py_score_value dl m c (length (counts (cdriver c))) =
    Ok (map (fun n => nadd (fS m (fE m (counts (cdriver c))) n)
                        (nneg (nlog (nadd (nof (sum_sizes (counts (cdriver c)))) (alpha m)))))
            (counts (cdriver c))).
  Proof.
    intros [Hd Hs]. unfold py_score_value. rewrite dassert_at_true by apply Nat.eqb_refl. cbn [obind].
    rewrite Hs, map_length, Nat.ltb_irrefl. cbn [orb]. f_equal. rewrite <- (map_length (fS m (fE m (counts (cdriver c)))) (counts (cdriver c))).
    rewrite firstn_all, map_map. rewrite (dinv_size _ Hd). reflexivity.
  Qed.

  Lemma py_cache_fresh dl m old old' cs ops sizes outs :
    sizes_ok cs -> dhistory cs ops sizes outs ->
    exists c0 c cf, py_init dl m old cs = Ok c0 /\ pyrun dl m c0 ops = Ok (c, outs) /\
      counts (cdriver c) = sizes /\ py_init dl m old' sizes = Ok cf /\
      (exists scores, py_score_value dl m c (length sizes) = Ok scores /\
        py_score_value dl m cf (length sizes) = Ok scores /\ length scores = length sizes).
  Proof.
    intros Hok Hh. destruct (py_init_ok dl m old cs Hok) as (c0 & E0 & H0 & Hc0). subst cs.
    destruct (py_run_ok dl m ops c0 sizes outs H0 Hh) as (c & E & H & Hc). subst sizes.
    assert (Hok' : sizes_ok (counts (cdriver c))).
    { pose proof (pi_d _ _ H) as Hd. split; [apply Hd|]. split; apply Hd. }
    destruct (py_init_ok dl m old' _ Hok') as (cf & Ef & Hf & Hcf).
    exists c0, c, cf. repeat split; auto.
    eexists. split; [apply py_score_value_ok; exact H|]. split; [|apply map_length].
    rewrite <- Hcf. apply py_score_value_ok. exact Hf.
  Qed.

  Lemma py_remove_inverse_add m l g l' b c :
    Forall (fun c => 0 <= c)%Z l ->
    dstep l (DAdd g 1) l' b -> nth_error l g = Some c ->
    py_score_remove m (c + 1) (Z.of_nat (length l' - num_empty l'))%Z (sum_sizes l') (Z.of_nat (num_empty l')) =
    nneg (py_score_add m c (Z.of_nat (length l - num_empty l))%Z (sum_sizes l) (Z.of_nat (num_empty l))).
  Proof.
    intros Hp Hs Hc. pose proof (dstep_num_empty _ _ _ _ Hs) as HE. pose proof (dstep_total _ _ _ _ Hs) as HT.
    cbn [net] in HT. unfold py_score_remove. rewrite HE, HT.
    replace (c + 1 - 1)%Z with c by lia. replace (sum_sizes l + (1 + 0) - 1)%Z with (sum_sizes l) by lia.
    assert (Hle : num_empty l <= length l) by apply count_occ_bound.
    do 2 f_equal. inversion Hs; subst.
    - destruct (Z.eqb_spec c 0) as [->|].
      + rewrite nth_error_app2, Nat.sub_diag in Hc by lia. injection Hc as ->. lia.
      + rewrite !app_length. reflexivity.
    - rewrite nth_error_app2, Nat.sub_diag in Hc by lia. injection Hc as <-. rewrite Z.eqb_refl.
      rewrite !app_length in *. simpl in *. rewrite app_length in *. simpl in *. lia.
  Qed.
End PYP.
