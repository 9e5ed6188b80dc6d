From Verif.model Require Import Base Driver DriverRun.
From Verif.spec Require Import DriverSpec.
From Verif.proof Require Import BaseProof.
From stdpp Require Import gmap.

(** The representation invariant. *)
Record dinv (d : driver) : Prop := {
  dinv_nonneg : Forall (fun c => 0 <= c)%Z (counts d);
  dinv_empties : forall i, i ∈ empties d <-> nth_error (counts d) i = Some 0%Z;
  dinv_has : In 0%Z (counts d);
  dinv_size : sample_size d = sum_sizes (counts d);
  dinv_bound : (sum_sizes (counts d) < 2 ^ 31)%Z }.

Lemma sum_sizes_app l1 l2 : sum_sizes (l1 ++ l2) = (sum_sizes l1 + sum_sizes l2)%Z.
Proof. induction l1 as [|x l1 IH]; cbn [sum_sizes app]; lia. Qed.

Lemma sum_sizes_nonneg l : Forall (fun c => 0 <= c)%Z l -> (0 <= sum_sizes l)%Z.
Proof. induction 1; cbn [sum_sizes]; lia. Qed.

(** sizes of the set of zero positions *)
Fixpoint zidx (i : nat) (l : list Z) : list nat :=
  match l with
  | [] => []
  | c :: l' => if (c =? 0)%Z then i :: zidx (S i) l' else zidx (S i) l'
  end.

Lemma elem_zidx l i j : j ∈ zidx i l <-> i <= j /\ nth_error l (j - i) = Some 0%Z.
Proof.
  revert i; induction l as [|c l IH]; intros i; cbn [zidx].
  - split; [intros H; inversion H|]. intros [_ H]; destruct (j - i); discriminate.
  - destruct (Z.eqb_spec c 0) as [->|Hc].
    + rewrite elem_of_cons, IH. split.
      * intros [->|[H1 H2]].
        -- rewrite Nat.sub_diag; simpl; auto.
        -- split; [lia|]. replace (j - i) with (S (j - S i)) by lia. exact H2.
      * intros [H1 H2]. destruct (decide (j = i)) as [->|Hne]; [auto|right].
        split; [lia|]. replace (j - i) with (S (j - S i)) in H2 by lia. exact H2.
    + rewrite IH. split.
      * intros [H1 H2]. split; [lia|]. replace (j - i) with (S (j - S i)) by lia. exact H2.
      * intros [H1 H2]. destruct (decide (j = i)) as [->|Hne].
        -- rewrite Nat.sub_diag in H2; simpl in H2; congruence.
        -- split; [lia|]. replace (j - i) with (S (j - S i)) in H2 by lia. exact H2.
Qed.

Lemma NoDup_zidx l i : NoDup (zidx i l).
Proof.
  revert i; induction l as [|c l IH]; intros i; cbn [zidx]; [constructor|].
  destruct (c =? 0)%Z; [|apply IH]. constructor; [|apply IH].
  rewrite elem_zidx. lia.
Qed.

Lemma length_zidx l i : length (zidx i l) = num_empty l.
Proof.
  unfold num_empty. revert i; induction l as [|c l IH]; intros i; cbn [zidx count_occ]; [reflexivity|].
  destruct (Z.eqb_spec c 0) as [->|Hc]; match goal with |- context[if ?x then _ else _] => destruct x end; try congruence; simpl; now rewrite IH.
Qed.

Lemma empties_size (X : gset nat) l :
  (forall i, i ∈ X <-> nth_error l i = Some 0%Z) -> size X = num_empty l.
Proof.
  intros H. rewrite <- (length_zidx l 0).
  replace X with (list_to_set (zidx 0 l) : gset nat).
  - apply size_list_to_set, NoDup_zidx.
  - apply set_eq; intro j. rewrite elem_of_list_to_set, elem_zidx, H.
    rewrite Nat.sub_0_r. split; [tauto|]. intro; split; [lia|auto].
Qed.

Lemma num_empty_app l1 l2 : num_empty (l1 ++ l2) = num_empty l1 + num_empty l2.
Proof. unfold num_empty. apply count_occ_app. Qed.

Lemma num_empty_In l : In 0%Z l <-> num_empty l > 0.
Proof. unfold num_empty. apply count_occ_In. Qed.

Lemma num_empty_cons c l :
  num_empty (c :: l) = (if BinInt.Z.eq_dec c 0 then 1 else 0) + num_empty l.
Proof. unfold num_empty; cbn [count_occ]. destruct (BinInt.Z.eq_dec c 0); reflexivity. Qed.

Lemma validate_ok dl d : dinv d -> driver_validate dl d = Ok tt.
Proof.
  intros [H1 H2 H3 H4 H5]. unfold driver_validate.
  rewrite dassert_at_true; [cbn [obind]|].
  - apply dassert_at_true. apply forallb_forall. intros i Hi.
    apply in_seq in Hi. apply eqb_true_iff.
    destruct (nth_error (counts d) i) as [c|] eqn:E.
    + rewrite (nth_error_nth _ _ 0%Z E).
      destruct (Z.eqb_spec c 0) as [->|Hc].
      * symmetry. apply bool_decide_eq_true. now apply H2.
      * symmetry. apply bool_decide_eq_false. rewrite H2, E. congruence.
    + apply nth_error_None in E. lia.
  - rewrite (empties_size _ _ H2). apply num_empty_In in H3.
    destruct (Nat.eqb_spec (num_empty (counts d)) 0); [lia|reflexivity].
Qed.

(** ** init *)
Lemma init_loop_ok cs : forall i es n,
  Forall (fun c => 0 <= c)%Z cs -> (0 <= n)%Z -> (n + sum_sizes cs < 2 ^ 31)%Z ->
  driver_init_loop i cs es n = Ok (es ∪ list_to_set (zidx i cs), (n + sum_sizes cs)%Z).
Proof.
  induction cs as [|c cs IH]; intros i es n Hn H0 Hb; cbn [driver_init_loop zidx sum_sizes] in *.
  - f_equal; f_equal; [set_solver|lia].
  - apply Forall_cons in Hn as [Hc Hn]. pose proof (sum_sizes_nonneg _ Hn).
    rewrite i32_ok by (unfold i32_min, i32_max; lia). cbn [obind].
    rewrite IH; [|assumption|lia|lia].
    f_equal. f_equal; [|lia]. destruct (c =? 0)%Z; cbn [list_to_set]; set_solver.
Qed.

Lemma init_ok dl cs : sizes_ok cs ->
  exists d, driver_init dl cs = Ok d /\ dinv d /\ counts d = cs.
Proof.
  intros (H1 & H2 & H3).
  set (d := mk_driver cs (list_to_set (zidx 0 cs)) (sum_sizes cs)).
  assert (Hd : dinv d).
  { constructor; subst d; cbn [counts empties sample_size]; auto.
    intro i. rewrite elem_of_list_to_set, elem_zidx, Nat.sub_0_r. split; [tauto|]. intro; split; [lia|auto]. }
  exists d. unfold driver_init. rewrite init_loop_ok by (auto; lia). cbn [obind fst snd].
  replace (mk_driver cs (∅ ∪ list_to_set (zidx 0 cs)) (0 + sum_sizes cs)) with d.
  - rewrite (validate_ok _ _ Hd). auto.
  - subst d; f_equal; set_solver.
Qed.

Lemma nth_error_mid {A} (pre : list A) a post i x :
  nth_error (pre ++ a :: post) i = Some x <->
  (i < length pre /\ nth_error pre i = Some x) \/ (i = length pre /\ a = x) \/
  (length pre < i /\ nth_error post (i - S (length pre)) = Some x).
Proof.
  destruct (lt_eq_lt_dec i (length pre)) as [[H|H]|H].
  - rewrite nth_error_app1 by lia. intuition lia.
  - subst. rewrite nth_error_app2, Nat.sub_diag by lia. simpl. split.
    + intros [= ->]. auto.
    + intros [[? _]|[[_ ->]|[? _]]]; [lia|auto|lia].
  - rewrite nth_error_app2 by lia. replace (i - length pre) with (S (i - S (length pre))) by lia. simpl.
    intuition lia.
Qed.

Lemma nth_error_snoc {A} (l : list A) a i x :
  nth_error (l ++ [a]) i = Some x <->
  (nth_error l i = Some x) \/ (i = length l /\ a = x).
Proof.
  rewrite nth_error_mid. split.
  - intros [[_ H]|[H|[_ H]]]; [auto|auto|]. destruct (i - S (length l)); discriminate.
  - intros [H|H]; [|auto]. left. split; [|auto]. apply nth_error_Some. congruence.
Qed.

Ltac lensimp := repeat (progress (rewrite ?app_length; cbn [length])).
Ltac lensimpin H := repeat (progress (rewrite ?app_length in H; cbn [length] in H)).

Lemma step_ok dl d o l1 b :
  dinv d -> dstep (counts d) o l1 b -> (sum_sizes l1 < 2 ^ 31)%Z ->
  exists d1, drun1 dl d o = Ok (d1, b) /\ dinv d1 /\ counts d1 = l1.
Proof.
  intros Hd Hstep Hb. pose proof Hd as [I1 I2 I3 I4 I5]. destruct d as [cs es n]. cbn [counts empties sample_size] in *.
  inversion Hstep as [pre c post k Hc Hk|pre post k Hk|pre c post k Hk Hck|pre k mid last Hk|pre k Hk]; subst;
    cbn [drun1]; unfold driver_add, driver_remove; cbn [counts empties sample_size].
  - (* add to nonempty *)
    rewrite Forall_app, Forall_cons in I1. destruct I1 as (F1 & F2 & F3).
    pose proof (sum_sizes_nonneg _ F1); pose proof (sum_sizes_nonneg _ F3).
    rewrite sum_sizes_app in *; cbn [sum_sizes] in *.
    rewrite dassert_at_true; cbn [obind]; [|destruct (Z.eqb_spec k 0); [lia|reflexivity]].
    rewrite dassert_at_true; cbn [obind]; [|apply Nat.ltb_lt; lensimp; lia].
    rewrite vget_app; cbn [obind].
    rewrite i32_ok by (unfold i32_min, i32_max; lia); cbn [obind].
    rewrite vset_app; cbn [obind].
    rewrite i32_ok by (unfold i32_min, i32_max; lia); cbn [obind].
    destruct (Z.eqb_spec c 0) as [?|_]; [lia|].
    eexists; split; [reflexivity|]. split; [|reflexivity].
    constructor; cbn [counts empties sample_size].
    + rewrite Forall_app, Forall_cons. repeat split; auto; lia.
    + intro i. rewrite I2, !nth_error_mid. intuition lia.
    + rewrite in_app_iff in *; cbn [In] in *. intuition lia.
    + rewrite sum_sizes_app; cbn [sum_sizes]. lia.
    + rewrite sum_sizes_app; cbn [sum_sizes]. lia.
  - (* add to empty *)
    rewrite Forall_app, Forall_cons in I1. destruct I1 as (F1 & F2 & F3).
    pose proof (sum_sizes_nonneg _ F1); pose proof (sum_sizes_nonneg _ F3).
    rewrite !sum_sizes_app in *; cbn [sum_sizes] in *. rewrite sum_sizes_app in Hb; cbn [sum_sizes] in Hb.
    rewrite dassert_at_true; cbn [obind]; [|destruct (Z.eqb_spec k 0); [lia|reflexivity]].
    rewrite dassert_at_true; cbn [obind]; [|apply Nat.ltb_lt; lensimp; lia].
    rewrite vget_app; cbn [obind].
    rewrite i32_ok by (unfold i32_min, i32_max; lia); cbn [obind].
    rewrite vset_app; cbn [obind].
    rewrite i32_ok by (unfold i32_min, i32_max; lia); cbn [obind].
    cbn [Z.eqb].
    match goal with |- context[driver_validate dl ?x] => set (d1 := x) end.
    assert (Hd1 : dinv d1).
    { constructor; subst d1; cbn [counts empties sample_size].
      - rewrite !Forall_app, Forall_cons. repeat split; auto; lia.
      - intro i. rewrite elem_of_union, elem_of_difference, !elem_of_singleton, I2.
        rewrite nth_error_snoc, !nth_error_mid. lensimp.
        intuition (subst; try lia; auto).
      - rewrite !in_app_iff; cbn [In]; auto.
      - rewrite !sum_sizes_app; cbn [sum_sizes]. lia.
      - rewrite !sum_sizes_app; cbn [sum_sizes]. lia. }
    rewrite (validate_ok _ _ Hd1). cbn [obind].
    eexists; split; [reflexivity|]. split; [exact Hd1|].
    subst d1; cbn [counts]. rewrite <- app_assoc. reflexivity.
  - (* remove some *)
    rewrite Forall_app, Forall_cons in I1. destruct I1 as (F1 & F2 & F3).
    pose proof (sum_sizes_nonneg _ F1); pose proof (sum_sizes_nonneg _ F3).
    rewrite sum_sizes_app in *; cbn [sum_sizes] in *.
    rewrite dassert_at_true; cbn [obind]; [|destruct (Z.eqb_spec k 0); [lia|reflexivity]].
    rewrite dassert_at_true; cbn [obind]; [|apply Nat.ltb_lt; lensimp; lia].
    rewrite vget_app; cbn [obind].
    rewrite dassert_at_true; cbn [obind]; [|destruct (Z.eqb_spec c 0); [lia|reflexivity]].
    rewrite dassert_at_true; cbn [obind]; [|apply Z.leb_le; lia].
    rewrite i32_ok by (unfold i32_min, i32_max; lia); cbn [obind].
    rewrite vset_app; cbn [obind].
    rewrite i32_ok by (unfold i32_min, i32_max; lia); cbn [obind].
    destruct (Z.eqb_spec (c - k) 0) as [?|_]; [lia|].
    eexists; split; [reflexivity|]. split; [|reflexivity].
    constructor; cbn [counts empties sample_size].
    + rewrite Forall_app, Forall_cons. repeat split; auto; lia.
    + intro i. rewrite I2, !nth_error_mid. intuition lia.
    + rewrite in_app_iff in *; cbn [In] in *. intuition lia.
    + rewrite sum_sizes_app; cbn [sum_sizes]. lia.
    + rewrite sum_sizes_app; cbn [sum_sizes]. lia.
  - (* remove all, not the last group *)
    rewrite Forall_app, Forall_cons, Forall_app, Forall_cons in I1. destruct I1 as (F1 & F2 & F3 & F4 & _).
    pose proof (sum_sizes_nonneg _ F1); pose proof (sum_sizes_nonneg _ F3).
    rewrite sum_sizes_app in *; cbn [sum_sizes] in *. rewrite sum_sizes_app in *; cbn [sum_sizes] in *.
    rewrite dassert_at_true; cbn [obind]; [|destruct (Z.eqb_spec k 0); [lia|reflexivity]].
    rewrite dassert_at_true; cbn [obind]; [|apply Nat.ltb_lt; lensimp; lia].
    rewrite vget_app; cbn [obind].
    rewrite dassert_at_true; cbn [obind]; [|destruct (Z.eqb_spec k 0); [lia|reflexivity]].
    rewrite dassert_at_true; cbn [obind]; [|apply Z.leb_le; lia].
    rewrite i32_ok by (unfold i32_min, i32_max; lia); cbn [obind].
    rewrite vset_app; cbn [obind].
    rewrite i32_ok by (unfold i32_min, i32_max; lia); cbn [obind].
    destruct (Z.eqb_spec (k - k) 0) as [_|?]; [|lia].
    replace (length (pre ++ (k - k)%Z :: mid ++ [last]) - 1) with (length (pre ++ (k - k)%Z :: mid))
      by (lensimp; lia).
    rewrite (app_assoc pre ((k - k)%Z :: mid) [last] : pre ++ (k - k)%Z :: mid ++ [last] = _).
    rewrite vget_app; cbn [obind].
    destruct (Nat.eqb_spec (length pre) (length (pre ++ (k - k)%Z :: mid))) as [E|_]; [lensimpin E; lia|].
    rewrite <- app_assoc. cbn [app]. rewrite vset_app. cbn [obind].
    match goal with |- context[removelast ?x] => replace (removelast x) with (pre ++ last :: mid) end.
    2:{ rewrite (app_assoc pre (last :: mid) [last] : pre ++ last :: mid ++ [last] = _).
        now rewrite removelast_last. }
    match goal with |- context[driver_validate dl ?x] => set (d1 := x) end.
    assert (Hd1 : dinv d1).
    { constructor; subst d1; cbn [counts empties sample_size].
      - rewrite !Forall_app, Forall_cons. repeat split; auto; lia.
      - intro i. destruct (Z.eqb_spec last 0) as [->|Hl].
        + rewrite elem_of_union, elem_of_difference, !elem_of_singleton, I2.
          rewrite (nth_error_mid pre k (mid ++ [0%Z])), nth_error_snoc, (nth_error_mid pre 0%Z mid). lensimp.
          split.
          * intros [[[[H2 H3]|[[H2 H3]|[H2 [H3|[H3 _]]]]] H4]|H2]; try lia; auto.
          * intros [[H2 H3]|[[H2 H3]|[H2 H3]]].
            -- left. split; [auto|lia].
            -- right. lia.
            -- assert (i - S (length pre) < length mid) by (apply nth_error_Some; congruence).
               left. split; [|lia]. auto.
        + rewrite I2. rewrite (nth_error_mid pre k (mid ++ [last])), nth_error_snoc, (nth_error_mid pre last mid). intuition lia.
      - rewrite in_app_iff in *; cbn [In] in *. rewrite in_app_iff in *; cbn [In] in *. intuition lia.
      - rewrite sum_sizes_app; cbn [sum_sizes]. lia.
      - rewrite sum_sizes_app; cbn [sum_sizes]. lia. }
    rewrite (validate_ok _ _ Hd1). cbn [obind].
    eexists; split; [reflexivity|]. split; [exact Hd1|reflexivity].
  - (* remove all of the last group *)
    rewrite Forall_app, Forall_cons in I1. destruct I1 as (F1 & F2 & _).
    pose proof (sum_sizes_nonneg _ F1).
    rewrite sum_sizes_app in *; cbn [sum_sizes] in *.
    rewrite dassert_at_true; cbn [obind]; [|destruct (Z.eqb_spec k 0); [lia|reflexivity]].
    rewrite dassert_at_true; cbn [obind]; [|apply Nat.ltb_lt; lensimp; lia].
    rewrite vget_app; cbn [obind].
    rewrite dassert_at_true; cbn [obind]; [|destruct (Z.eqb_spec k 0); [lia|reflexivity]].
    rewrite dassert_at_true; cbn [obind]; [|apply Z.leb_le; lia].
    rewrite i32_ok by (unfold i32_min, i32_max; lia); cbn [obind].
    rewrite vset_app; cbn [obind].
    rewrite i32_ok by (unfold i32_min, i32_max; lia); cbn [obind].
    destruct (Z.eqb_spec (k - k) 0) as [_|?]; [|lia].
    replace (length (l1 ++ [(k - k)%Z]) - 1) with (length l1) by (lensimp; lia).
    rewrite vget_app; cbn [obind]. rewrite Nat.eqb_refl. cbn [obind].
    rewrite removelast_last.
    match goal with |- context[driver_validate dl ?x] => set (d1 := x) end.
    assert (Hd1 : dinv d1).
    { constructor; subst d1; cbn [counts empties sample_size]; auto.
      - intro i. rewrite I2, nth_error_snoc. intuition lia.
      - rewrite in_app_iff in I3; cbn [In] in I3. intuition lia.
      - lia. }
    rewrite (validate_ok _ _ Hd1). cbn [obind].
    eexists; split; [reflexivity|]. split; [exact Hd1|reflexivity].
Qed.

Lemma run_ok dl ops : forall d l bs,
  dinv d -> dhistory (counts d) ops l bs ->
  exists d', drun dl d ops = Ok (d', bs) /\ dinv d' /\ counts d' = l.
Proof.
  induction ops as [|o ops IH]; intros d l bs Hd H; inversion H; subst; cbn [drun].
  - eauto.
  - match goal with Hs : dstep _ _ _ _, Hb : (_ < _)%Z |- _ =>
      destruct (step_ok dl d o _ _ Hd Hs Hb) as (d1 & E & Hd1 & Hc) end.
    rewrite E. cbn [obind fst snd]. subst.
    match goal with Hh : dhistory (counts d1) _ _ _ |- _ =>
      destruct (IH d1 _ _ Hd1 Hh) as (d' & E' & Hd' & Hc') end.
    rewrite E'. cbn [obind fst snd]. eauto.
Qed.

Lemma dstep_total l o l1 b : dstep l o l1 b -> sum_sizes l1 = (sum_sizes l + net [o])%Z.
Proof.
  destruct 1; cbn [net]; rewrite ?sum_sizes_app; cbn [sum_sizes]; rewrite ?sum_sizes_app; cbn [sum_sizes]; lia.
Qed.

Lemma net_cons o ops : net (o :: ops) = (net [o] + net ops)%Z.
Proof. destruct o; cbn [net]; lia. Qed.

Lemma dhistory_total l ops l' bs : dhistory l ops l' bs -> sum_sizes l' = (sum_sizes l + net ops)%Z.
Proof.
  induction 1 as [|l o l1 b ops l2 bs Hs Hb Hh IH]; [cbn [net]; lia|].
  rewrite net_cons. apply dstep_total in Hs. lia.
Qed.

Lemma dstep_num_empty l o l1 b : dstep l o l1 b -> num_empty l1 = num_empty l.
Proof.
  destruct 1; repeat (rewrite ?num_empty_app, ?num_empty_cons);
    repeat match goal with |- context[BinInt.Z.eq_dec ?x 0] => destruct (BinInt.Z.eq_dec x 0) end;
    cbn [num_empty count_occ] in *; try lia; unfold num_empty; cbn [count_occ]; lia.
Qed.

Lemma dhistory_num_empty l ops l' bs : dhistory l ops l' bs -> num_empty l' = num_empty l.
Proof.
  induction 1 as [|l o l1 b ops l2 bs Hs Hb Hh IH]; [reflexivity|].
  apply dstep_num_empty in Hs. congruence.
Qed.

Lemma reachable_inv dl d : driver_reachable dl d -> dinv d.
Proof.
  intros (cs & d0 & ops & sizes & outs & Hok & Hi & Hh & Hr).
  destruct (init_ok dl cs Hok) as (d0' & E & Hd0 & Hc). rewrite E in Hi. injection Hi as ->.
  subst cs. destruct (run_ok dl ops d0 sizes outs Hd0 Hh) as (d' & E' & Hd' & _).
  rewrite E' in Hr. injection Hr as ->. exact Hd'.
Qed.

Lemma counts_exact dl cs ops sizes outs :
  sizes_ok cs -> dhistory cs ops sizes outs ->
  exists d0 d, driver_init dl cs = Ok d0 /\ drun dl d0 ops = Ok (d, outs) /\
    counts d = sizes /\ sample_size d = sum_sizes sizes /\
    (sum_sizes sizes = sum_sizes cs + net ops)%Z.
Proof.
  intros Hok Hh. destruct (init_ok dl cs Hok) as (d0 & E & Hd0 & Hc). subst cs.
  destruct (run_ok dl ops d0 sizes outs Hd0 Hh) as (d' & E' & Hd' & Hc').
  exists d0, d'. repeat split; auto.
  - rewrite (dinv_size _ Hd'). congruence.
  - eapply dhistory_total; eauto.
Qed.

Lemma empties_exact dl cs d0 ops sizes outs d :
  sizes_ok cs -> driver_init dl cs = Ok d0 ->
  dhistory cs ops sizes outs -> drun dl d0 ops = Ok (d, outs) ->
  (forall i, i ∈ empties d <-> nth_error (counts d) i = Some 0%Z) /\
  size (empties d) = num_empty cs /\ 0 < size (empties d).
Proof.
  intros Hok Hi Hh Hr.
  destruct (init_ok dl cs Hok) as (d0' & E & Hd0 & Hc). rewrite E in Hi. injection Hi as ->.
  subst cs. destruct (run_ok dl ops d0 sizes outs Hd0 Hh) as (d' & E' & Hd' & Hc').
  rewrite E' in Hr. injection Hr as ->.
  pose proof (dinv_empties _ Hd') as HE. split; [exact HE|].
  rewrite (empties_size _ _ HE), Hc'. rewrite (dhistory_num_empty _ _ _ _ Hh). split; [reflexivity|].
  apply num_empty_In, dinv_has, Hd0.
Qed.

Lemma add_frame dl d g c n :
  driver_reachable dl d -> nth_error (counts d) g = Some c -> (0 < n)%Z ->
  (sum_sizes (counts d) + n < 2 ^ 31)%Z ->
  exists d' b, driver_add dl d g n = Ok (d', b) /\ (b = true <-> c = 0%Z) /\
    nth_error (counts d') g = Some (c + n)%Z /\
    (forall i, i <> g -> i < length (counts d) -> nth_error (counts d') i = nth_error (counts d) i) /\
    (c <> 0%Z -> length (counts d') = length (counts d)) /\
    (c = 0%Z -> length (counts d') = S (length (counts d)) /\
                nth_error (counts d') (length (counts d)) = Some 0%Z).
Proof.
  intros Hr Hg Hn Hb. apply reachable_inv in Hr.
  destruct (split_nth_error _ _ _ Hg) as (pre & post & E & <-).
  assert (Hc : (0 <= c)%Z).
  { pose proof (dinv_nonneg _ Hr) as F. rewrite E, Forall_app, Forall_cons in F. tauto. }
  destruct (decide (c = 0%Z)) as [->|Hc0].
  - assert (Hs : dstep (counts d) (DAdd (length pre) n) (pre ++ n :: post ++ [0%Z]) true)
      by (rewrite E; constructor; auto).
    destruct (step_ok dl d _ _ _ Hr Hs) as (d1 & R & Hd1 & Ec).
    { apply dstep_total in Hs. cbn [net] in Hs. lia. }
    exists d1, true. cbn [drun1] in R. rewrite R, Ec, E. split; [reflexivity|]. split; [tauto|].
    split; [rewrite nth_error_app2, Nat.sub_diag by lia; reflexivity|].
    split; [|split; [congruence|intros _; split; [lensimp; lia|]]].
    + intros i Hi Hl. rewrite (app_assoc pre (n :: post) [0%Z] : pre ++ n :: post ++ [0%Z] = _).
      rewrite nth_error_app1 by (revert Hl; lensimp; lia).
      destruct (lt_eq_lt_dec i (length pre)) as [[H|H]|H]; [|lia|].
      * rewrite !nth_error_app1 by lia. reflexivity.
      * rewrite !nth_error_app2 by lia. replace (i - length pre) with (S (i - S (length pre))) by lia. reflexivity.
    + rewrite (app_assoc pre (n :: post) [0%Z] : pre ++ n :: post ++ [0%Z] = _).
      rewrite nth_error_app2 by (lensimp; lia). lensimp. rewrite Nat.sub_diag. reflexivity.
  - assert (Hs : dstep (counts d) (DAdd (length pre) n) (pre ++ (c + n)%Z :: post) false)
      by (rewrite E; constructor; auto; lia).
    destruct (step_ok dl d _ _ _ Hr Hs) as (d1 & R & Hd1 & Ec).
    { apply dstep_total in Hs. cbn [net] in Hs. lia. }
    exists d1, false. cbn [drun1] in R. rewrite R, Ec, E. split; [reflexivity|]. split; [split; congruence|].
    split; [rewrite nth_error_app2, Nat.sub_diag by lia; reflexivity|].
    split; [|split; [intros _; lensimp; lia|congruence]].
    intros i Hi Hl. destruct (lt_eq_lt_dec i (length pre)) as [[H|H]|H]; [|lia|].
    + rewrite !nth_error_app1 by lia. reflexivity.
    + rewrite !nth_error_app2 by lia. replace (i - length pre) with (S (i - S (length pre))) by lia. reflexivity.
Qed.

Lemma remove_frame dl d g c n :
  driver_reachable dl d -> nth_error (counts d) g = Some c -> (0 < n <= c)%Z ->
  exists d' b, driver_remove dl d g n = Ok (d', b) /\ (b = true <-> n = c) /\
    (forall i, i <> g -> i < length (counts d') -> nth_error (counts d') i = nth_error (counts d) i) /\
    (n < c -> length (counts d') = length (counts d) /\
              nth_error (counts d') g = Some (c - n))%Z /\
    (n = c -> S (length (counts d')) = length (counts d) /\
              (g < length (counts d') ->
               nth_error (counts d') g = nth_error (counts d) (length (counts d) - 1))).
Proof.
  intros Hr Hg [Hn Hnc]. apply reachable_inv in Hr.
  destruct (split_nth_error _ _ _ Hg) as (pre & post & E & <-).
  pose proof (dinv_bound _ Hr) as Hbd.
  destruct (decide (n = c)) as [->|Hne].
  - destruct post as [|x post'] using rev_ind.
    + assert (Hs : dstep (counts d) (DRem (length pre) c) pre true) by (rewrite E; constructor; auto).
      destruct (step_ok dl d _ _ _ Hr Hs) as (d1 & R & Hd1 & Ec).
      { apply dstep_total in Hs. cbn [net] in Hs. lia. }
      exists d1, true. cbn [drun1] in R. rewrite R, Ec, E. split; [reflexivity|]. split; [tauto|].
      split; [intros i Hi Hl; rewrite nth_error_app1 by lia; reflexivity|].
      split; [lia|]. intros _. lensimp. split; lia.
    + clear IHpost'.
      assert (Hs : dstep (counts d) (DRem (length pre) c) (pre ++ x :: post') true) by (rewrite E; constructor; auto).
      destruct (step_ok dl d _ _ _ Hr Hs) as (d1 & R & Hd1 & Ec).
      { apply dstep_total in Hs. cbn [net] in Hs. lia. }
      exists d1, true. cbn [drun1] in R. rewrite R, Ec, E. split; [reflexivity|]. split; [tauto|].
      split; [|split; [lia|]].
      * intros i Hi Hl. revert Hl; lensimp; intro Hl.
        destruct (lt_eq_lt_dec i (length pre)) as [[H|H]|H]; [|lia|].
        -- rewrite !nth_error_app1 by lia. reflexivity.
        -- rewrite !(nth_error_app2 pre) by lia. replace (i - length pre) with (S (i - S (length pre))) by lia.
           cbn [nth_error]. rewrite nth_error_app1 by lia. reflexivity.
      * intros _. lensimp. split; [lia|]. intros _.
        rewrite nth_error_app2, Nat.sub_diag by lia. cbn [nth_error].
        rewrite (app_assoc pre (c :: post') [x] : pre ++ c :: post' ++ [x] = _).
        rewrite nth_error_app2 by (lensimp; lia). lensimp.
        match goal with |- _ = nth_error _ ?k => replace k with 0 by lia end. reflexivity.
  - assert (Hs : dstep (counts d) (DRem (length pre) n) (pre ++ (c - n)%Z :: post) false)
      by (rewrite E; constructor; lia).
    destruct (step_ok dl d _ _ _ Hr Hs) as (d1 & R & Hd1 & Ec).
    { apply dstep_total in Hs. cbn [net] in Hs. lia. }
    exists d1, false. cbn [drun1] in R. rewrite R, Ec, E. split; [reflexivity|]. split; [split; congruence|].
    split; [|split; [intros _; lensimp; split; [lia|rewrite nth_error_app2, Nat.sub_diag by lia; reflexivity]|lia]].
    intros i Hi Hl. destruct (lt_eq_lt_dec i (length pre)) as [[H|H]|H]; [|lia|].
    + rewrite !nth_error_app1 by lia. reflexivity.
    + rewrite !nth_error_app2 by lia. replace (i - length pre) with (S (i - S (length pre))) by lia. reflexivity.
Qed.

(** Illegal calls at debug level >= 2. *)
Lemma illegal_add_rejected dl d g n : 2 <= dl ->
  (g >= length (counts d) \/ n = 0%Z) -> driver_add dl d g n = Fail.
Proof.
  intros Hdl H. unfold driver_add, dassert_at.
  destruct (Nat.leb_spec 1 dl); [|lia]. destruct (Nat.leb_spec 2 dl); [|lia].
  unfold dassert. destruct (Z.eqb_spec n 0); cbn [negb obind]; [reflexivity|].
  destruct H as [H|H]; [|congruence].
  destruct (Nat.ltb_spec g (length (counts d))); [lia|reflexivity].
Qed.

Lemma illegal_remove_rejected dl d g n : 2 <= dl ->
  (g >= length (counts d) \/ n = 0%Z \/
   exists c, nth_error (counts d) g = Some c /\ (c = 0 \/ c < n)%Z) ->
  driver_remove dl d g n = Fail.
Proof.
  intros Hdl H. unfold driver_remove, dassert_at.
  destruct (Nat.leb_spec 1 dl); [|lia]. destruct (Nat.leb_spec 2 dl); [|lia].
  unfold dassert. destruct (Z.eqb_spec n 0); cbn [negb obind]; [reflexivity|].
  destruct H as [H|[H|(c & Hc & H)]]; [|congruence|].
  - destruct (Nat.ltb_spec g (length (counts d))); [lia|reflexivity].
  - destruct (Nat.ltb_spec g (length (counts d))); [|reflexivity]. cbn [obind].
    unfold vget. rewrite Hc. cbn [obind].
    destruct (Z.eqb_spec c 0); cbn [negb obind]; [reflexivity|].
    destruct (Z.leb_spec n c); [lia|reflexivity].
Qed.
