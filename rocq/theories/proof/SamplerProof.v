From Coq Require Import Reals Lra Permutation.
From Verif.model Require Import Base Num NumR VectorMath Random PitmanYor Sampler.
From Verif.spec Require Import PartitionSpec RandomSpec LabelSpec DriverSpec.
From Verif.proof Require Import BaseProof VectorProof RandomProof.

(** ** count_assignments *)
Definition lub (l : list (Z * Z)) : nat := fold_right (fun p m => Nat.max (S (Z.to_nat (snd p))) m) 0 l.
Definition tally (l : list (Z * Z)) : list Z := map (fun g => Z.of_nat (group_occ g l)) (seq 0 (lub l)).

Lemma lub_app l p : lub (l ++ [p]) = Nat.max (lub l) (S (Z.to_nat (snd p))).
Proof. induction l as [|q l IH]; cbn [app lub fold_right]; [lia|]. unfold lub in IH. rewrite IH. lia. Qed.
Lemma lub_ge l p : In p l -> Z.to_nat (snd p) < lub l.
Proof. induction l as [|q l IH]; intros []; cbn [lub fold_right]; [subst; lia|]. specialize (IH H). unfold lub in IH. lia. Qed.
Lemma occ_app g l p : group_occ g (l ++ [p]) = group_occ g l + (if Z.eqb (snd p) (Z.of_nat g) then 1 else 0).
Proof.
  unfold group_occ. rewrite filter_app, app_length. cbn [filter]. destruct (_ =? _)%Z; reflexivity.
Qed.
Lemma occ_beyond g l : Forall (fun p => 0 <= snd p)%Z l -> lub l <= g -> group_occ g l = 0.
Proof.
  intros H Hg. unfold group_occ.
  assert (E : filter (fun p => (snd p =? Z.of_nat g)%Z) l = []).
  { revert Hg. induction H as [|p l Hp Hl IH]; intro Hg; [reflexivity|]. cbn [filter lub fold_right] in *.
    unfold lub in IH. rewrite IH by lia. destruct (Z.eqb_spec (snd p) (Z.of_nat g)); [lia|reflexivity]. }
  now rewrite E.
Qed.
Lemma tally_length l : length (tally l) = lub l.
Proof. unfold tally. now rewrite map_length, seq_length. Qed.
Lemma tally_nth l g : g < lub l -> nth_error (tally l) g = Some (Z.of_nat (group_occ g l)).
Proof.
  intro H. unfold tally. rewrite nth_error_map.
  rewrite (nth_error_nth' (seq 0 (lub l)) 0) by (rewrite seq_length; exact H). cbn. now rewrite seq_nth.
Qed.
Lemma occ_le g l : group_occ g l <= length l.
Proof. unfold group_occ. induction l as [|p l IH]; simpl; [lia|]. destruct (_ =? _)%Z; simpl; lia. Qed.

Lemma count_step l p : Forall (fun p => 0 <= snd p)%Z l -> (0 <= snd p)%Z ->
  (Z.of_nat (length l) + 1 <= i32_max)%Z -> forall t,
  count_loop (tally l) (p :: t) = count_loop (tally (l ++ [p])) t.
Proof.
  intros Hl Hp Hb t. cbn [count_loop]. destruct p as [k gid]. cbn [snd] in *.
  destruct (Z.ltb_spec gid 0); [lia|]. cbn zeta. rewrite tally_length.
  set (g := Z.to_nat gid).
  set (cs1 := if lub l <=? g then tally l ++ repeat 0%Z (g + 1 - lub l) else tally l).
  assert (Hlen : length cs1 = lub (l ++ [(k, gid)])).
  { unfold cs1. rewrite lub_app. cbn [snd]. fold g. destruct (Nat.leb_spec (lub l) g).
    - rewrite app_length, repeat_length, tally_length. lia.
    - rewrite tally_length. lia. }
  assert (Hg : g < length cs1) by (rewrite Hlen, lub_app; cbn [snd]; fold g; lia).
  assert (Hnth : forall i, i < length cs1 -> nth_error cs1 i = Some (Z.of_nat (group_occ i l))).
  { intros i Hi. unfold cs1 in *. destruct (Nat.leb_spec (lub l) g) as [Hle|Hle].
    - destruct (Nat.lt_ge_cases i (lub l)) as [Hlt|Hge].
      + rewrite nth_error_app1 by (rewrite tally_length; lia). apply tally_nth. lia.
      + rewrite nth_error_app2 by (rewrite tally_length; lia). rewrite tally_length, occ_beyond by auto.
        rewrite app_length, tally_length in Hi.
        rewrite nth_error_repeat by (rewrite repeat_length in Hi; lia). reflexivity.
    - rewrite tally_length in Hi. apply tally_nth. lia. }
  assert (Hgg := Hnth g Hg). rewrite (vget_nth _ _ _ Hgg). cbn [obind].
  rewrite i32_ok by (pose proof (occ_le g l); unfold i32_min, i32_max in *; lia). cbn [obind].
  rewrite vset_ok by exact Hg. cbn [obind]. f_equal.
  apply nth_error_ext. intro i. destruct (Nat.lt_ge_cases i (length cs1)) as [Hi|Hi].
  - rewrite tally_nth by (rewrite <- Hlen; exact Hi). rewrite occ_app. cbn [snd].
    destruct (Nat.eq_dec i g) as [->|Hne].
    + rewrite nth_error_upd_eq by exact Hg. unfold g. rewrite Z2Nat.id by lia. rewrite Z.eqb_refl. f_equal. lia.
    + rewrite nth_error_upd_ne by lia. rewrite Hnth by exact Hi.
      destruct (Z.eqb_spec gid (Z.of_nat i)); [exfalso; apply Hne; unfold g; lia|]. f_equal. lia.
  - transitivity (@None Z); [|symmetry]; apply nth_error_None; [rewrite length_upd; exact Hi|].
    rewrite tally_length. lia.
Qed.

Lemma count_loop_ok t : forall l, Forall (fun p => 0 <= snd p)%Z (l ++ t) ->
  (Z.of_nat (length (l ++ t)) <= i32_max)%Z -> count_loop (tally l) t = Ok (tally (l ++ t)).
Proof.
  induction t as [|p t IH]; intros l H Hb.
  - rewrite app_nil_r. reflexivity.
  - apply Forall_app in H as H'. destruct H' as [Hl Ht].
    rewrite count_step; [| exact Hl | exact (Forall_inv Ht) | rewrite app_length in Hb; simpl in Hb; lia].
    replace (l ++ p :: t) with ((l ++ [p]) ++ t) in * by (rewrite <- app_assoc; reflexivity).
    apply IH; auto.
Qed.

Lemma lub_perm l l' : Permutation l l' -> lub l = lub l'.
Proof. unfold lub. induction 1; simpl; lia. Qed.
Lemma occ_perm g l l' : Permutation l l' -> group_occ g l = group_occ g l'.
Proof.
  unfold group_occ. induction 1; cbn [filter]; try lia.
  - destruct (_ =? _)%Z; cbn [length]; lia.
  - destruct (snd y =? _)%Z, (snd x =? _)%Z; reflexivity.
Qed.
Lemma tally_perm l l' : Permutation l l' -> tally l = tally l'.
Proof. intro H. unfold tally. rewrite (lub_perm _ _ H). apply map_ext. intro g. now rewrite (occ_perm g _ _ H). Qed.

Lemma tally_pos l : forallb (fun c => 0 <? c)%Z (tally l) = true <-> (forall g, g < lub l -> 0 < group_occ g l).
Proof.
  rewrite forallb_forall. split.
  - intros H g Hg. specialize (H _ (nth_error_In _ _ (tally_nth l g Hg))). apply Z.ltb_lt in H. lia.
  - intros H c Hc. apply In_nth_error in Hc. destruct Hc as [g Hg].
    assert (Hlt : g < lub l) by (rewrite <- tally_length; apply nth_error_Some; congruence).
    rewrite tally_nth in Hg by exact Hlt. injection Hg as <-. apply Z.ltb_lt. specialize (H g Hlt). lia.
Qed.

Lemma count_raw dl l : Forall (fun p => 0 <= snd p)%Z l -> (Z.of_nat (length l) < 2 ^ 31)%Z ->
  count_assignments dl l = if (2 <=? dl) && negb (forallb (fun c => 0 <? c)%Z (tally l)) then Fail else Ok (tally l).
Proof.
  intros H Hb. unfold count_assignments. change (@nil Z) with (tally []). rewrite (count_loop_ok l []) by (auto; unfold i32_max; simpl; lia).
  cbn [app obind]. unfold dassert_at, dassert. destruct (2 <=? dl); cbn [andb]; [|reflexivity].
  destruct (forallb _ _); reflexivity.
Qed.

Lemma sum_sizes_map_add {A} (f h : A -> Z) l : sum_sizes (map (fun x => f x + h x)%Z l) = (sum_sizes (map f l) + sum_sizes (map h l))%Z.
Proof. induction l; simpl; lia. Qed.
Lemma sum_indicator (g n : nat) : forall lo, lo <= g < lo + n ->
  sum_sizes (map (fun i => if Z.eqb (Z.of_nat g) (Z.of_nat i) then 1 else 0)%Z (seq lo n)) = 1%Z.
Proof.
  assert (Z0 : forall n lo, g < lo -> sum_sizes (map (fun i => if Z.eqb (Z.of_nat g) (Z.of_nat i) then 1 else 0)%Z (seq lo n)) = 0%Z).
  { clear. induction n as [|n IH]; intros lo H; [reflexivity|]. cbn [seq map sum_sizes]. rewrite IH by lia.
    destruct (Z.eqb_spec (Z.of_nat g) (Z.of_nat lo)); lia. }
  induction n as [|n IH]; intros lo H; [lia|]. cbn [seq map sum_sizes].
  destruct (Z.eqb_spec (Z.of_nat g) (Z.of_nat lo)).
  - rewrite Z0 by lia. reflexivity.
  - rewrite IH by lia. reflexivity.
Qed.
Lemma tally_sum l n : Forall (fun p => 0 <= snd p)%Z l -> lub l <= n ->
  sum_sizes (map (fun g => Z.of_nat (group_occ g l)) (seq 0 n)) = Z.of_nat (length l).
Proof.
  intros H. revert n. induction H as [|p l Hp Hl IH]; intros n Hn.
  - unfold group_occ. cbn [filter length]. generalize (seq 0 n) as q. induction q; simpl; auto.
  - cbn [lub fold_right] in Hn. fold (lub l) in Hn.
    rewrite (map_ext _ (fun g => (if Z.eqb (Z.of_nat (Z.to_nat (snd p))) (Z.of_nat g) then 1 else 0) + Z.of_nat (group_occ g l))%Z).
    + rewrite sum_sizes_map_add, sum_indicator by lia. rewrite IH by lia. cbn [length]. lia.
    + intro g. unfold group_occ. cbn [filter]. rewrite Z2Nat.id by lia. destruct (_ =? _)%Z; cbn [length]; lia.
Qed.

Lemma lub_attained l : Forall (fun p => 0 <= snd p)%Z l -> l <> [] -> exists p, In p l /\ snd p = (Z.of_nat (lub l) - 1)%Z.
Proof.
  induction 1 as [|p l Hp Hl IH]; intro H; [congruence|]. cbn [lub fold_right]. fold (lub l).
  destruct (Nat.max_spec (S (Z.to_nat (snd p))) (lub l)) as [[Hm ->]|[Hm ->]].
  - destruct l as [|q l]; [simpl in Hm; lia|]. destruct IH as (r & Hr & E); [discriminate|].
    exists r. split; [right; auto|auto].
  - exists p. split; [left; auto|]. lia.
Qed.

(** The counts, the length, the total and the effect of gaps. *)
Lemma count_assignments_ok dl l : Forall (fun p => 0 <= snd p)%Z l -> (Z.of_nat (length l) < 2 ^ 31)%Z ->
  dl < 2 \/ (forall g h, In h l -> (Z.of_nat g < snd h)%Z -> exists p, In p l /\ snd p = Z.of_nat g) ->
  exists cs, count_assignments dl l = Ok cs /\
    (forall g c, nth_error cs g = Some c -> c = Z.of_nat (group_occ g l)) /\
    (forall p, In p l -> (snd p < Z.of_nat (length cs))%Z) /\
    (l = [] -> cs = []) /\ (l <> [] -> exists p, In p l /\ snd p = (Z.of_nat (length cs) - 1)%Z) /\
    sum_sizes cs = Z.of_nat (length l).
Proof.
  intros H Hb Hgap. exists (tally l). rewrite count_raw by auto. split; [|split; [|split; [|split; [|split]]]].
  - destruct (Nat.leb_spec 2 dl); [|reflexivity]. cbn [andb].
    assert (E : forallb (fun c => 0 <? c)%Z (tally l) = true); [|now rewrite E].
    apply tally_pos. intros g Hg. destruct Hgap as [Hlt|Hgap]; [lia|].
    assert (Hin : exists p, In p l /\ snd p = Z.of_nat g).
    { destruct (lub_attained l H) as (h & Hh & Eh); [intros ->; simpl in Hg; lia|].
      destruct (Z.eq_dec (snd h) (Z.of_nat g)); [eauto|]. apply (Hgap g h Hh). lia. }
    destruct Hin as (p & Hp & Ep). unfold group_occ.
    assert (Hf : In p (filter (fun p => (snd p =? Z.of_nat g)%Z) l)).
    { apply filter_In. split; auto. now apply Z.eqb_eq. }
    destruct (filter _ l); [destruct Hf|simpl; lia].
  - intros g c Hc. assert (Hlt : g < lub l) by (rewrite <- tally_length; apply nth_error_Some; congruence).
    rewrite tally_nth in Hc by auto. congruence.
  - intros p Hp. rewrite tally_length. pose proof (lub_ge l p Hp).
    rewrite Forall_forall in H. specialize (H p Hp). lia.
  - intros ->. reflexivity.
  - rewrite tally_length. apply lub_attained. exact H.
  - unfold tally. apply tally_sum; auto.
Qed.

Lemma count_assignments_perm dl l l' : Permutation l l' -> Forall (fun p => 0 <= snd p)%Z l ->
  (Z.of_nat (length l) < 2 ^ 31)%Z -> count_assignments dl l = count_assignments dl l'.
Proof.
  intros HP H Hb. rewrite !count_raw; auto.
  - now rewrite (tally_perm _ _ HP).
  - rewrite Forall_forall in *. intros p Hp. apply H. eapply Permutation_in; [apply Permutation_sym|]; eauto.
  - now rewrite <- (Permutation_length HP).
Qed.

Lemma count_assignments_gap dl l g h : Forall (fun p => 0 <= snd p)%Z l -> (Z.of_nat (length l) < 2 ^ 31)%Z ->
  2 <= dl -> In h l -> (Z.of_nat g < snd h)%Z -> (forall p, In p l -> snd p <> Z.of_nat g) ->
  count_assignments dl l = Fail.
Proof.
  intros H Hb Hdl Hh Hlt Hno. rewrite count_raw by auto.
  apply Nat.leb_le in Hdl. rewrite Hdl. cbn [andb].
  destruct (forallb _ _) eqn:E; [|reflexivity]. exfalso.
  specialize (proj1 (tally_pos l) E g) as Hp.
  assert (Hg : g < lub l) by (pose proof (lub_ge l h Hh); lia).
  specialize (Hp Hg). unfold group_occ in Hp.
  destruct (filter _ l) as [|p f] eqn:Ef; [simpl in Hp; lia|].
  assert (Hin : In p (filter (fun p => (snd p =? Z.of_nat g)%Z) l)) by (rewrite Ef; left; auto).
  apply filter_In in Hin. destruct Hin as [Hin Eg]. apply Z.eqb_eq in Eg. exact (Hno p Hin Eg).
Qed.

Lemma count_assignments_negative dl l1 k g l2 : (g < 0)%Z -> Forall (fun p => 0 <= snd p)%Z l1 ->
  (Z.of_nat (length l1) < 2 ^ 31)%Z -> count_assignments dl (l1 ++ (k, g) :: l2) = Fail.
Proof.
  intros Hg H Hb. unfold count_assignments.
  assert (E : forall t l, Forall (fun p => 0 <= snd p)%Z (l ++ t) -> (Z.of_nat (length (l ++ t)) <= i32_max)%Z ->
     count_loop (tally l) (t ++ (k, g) :: l2) = Fail).
  { clear H Hb. induction t as [|p t IH]; intros l H Hb.
    - cbn [app count_loop]. destruct (Z.ltb_spec g 0); [reflexivity|lia].
    - apply Forall_app in H as H'. destruct H' as [Hl Ht]. cbn [app].
      rewrite count_step; [| exact Hl | exact (Forall_inv Ht) | rewrite app_length in Hb; simpl in Hb; lia].
      apply IH; rewrite <- app_assoc; auto. }
  change (@nil Z) with (tally []). rewrite E; [reflexivity|auto|]. unfold i32_max. simpl. lia.
Qed.

(** ** Labels *)
Lemma upd_app1 {A} (l1 l2 : list A) i x : (i < length l1)%nat -> upd (l1 ++ l2) i x = upd l1 i x ++ l2.
Proof. revert i. induction l1 as [|y l1 IH]; intros [|i] H; simpl in *; try lia; auto. rewrite IH; auto; lia. Qed.
Lemma labels_app k l1 l2 : labels_from k (l1 ++ l2) <-> labels_from k l1 /\ labels_from (next_label k l1) l2.
Proof.
  revert k. induction l1 as [|a l1 IH]; intro k; cbn [app labels_from next_label]; [tauto|]. rewrite IH. tauto.
Qed.
Lemma next_app k l1 l2 : next_label k (l1 ++ l2) = next_label (next_label k l1) l2.
Proof. revert k. induction l1 as [|a l1 IH]; intro k; cbn [app next_label]; auto. Qed.
Lemma next_ge k l : (k <= next_label k l)%Z.
Proof. revert k. induction l as [|a l IH]; intro k; cbn [next_label]; [lia|]. specialize (IH (if (a =? k)%Z then k + 1 else k)%Z).
       destruct (a =? k)%Z; lia. Qed.
Lemma next_le k l : (next_label k l <= k + Z.of_nat (length l))%Z.
Proof. revert k. induction l as [|a l IH]; intro k; cbn [next_label length]; [lia|]. specialize (IH (if (a =? k)%Z then k + 1 else k)%Z).
       destruct (a =? k)%Z; lia. Qed.
Lemma labels_lt k l a : labels_from k l -> In a l -> (a < next_label k l)%Z.
Proof.
  revert k. induction l as [|b l IH]; intros k H Ha; [destruct Ha|]. cbn [labels_from next_label] in *.
  destruct H as [Hb H]. destruct Ha as [->|Ha]; [|auto].
  pose proof (next_ge (if (a =? k)%Z then k + 1 else k)%Z l). destruct (Z.eqb_spec a k); lia.
Qed.
Lemma occ_snoc g l a : occ g (l ++ [a]) = (occ g l + if (a =? g)%Z then 1 else 0)%Z.
Proof.
  unfold occ. rewrite count_occ_app. cbn [count_occ]. destruct (Z.eq_dec a g); destruct (Z.eqb_spec a g); try lia.
Qed.
Lemma occ_fresh k l : labels_from 0 l -> (next_label 0 l <= k)%Z -> occ k l = 0%Z.
Proof.
  intros H Hk. unfold occ. rewrite (proj1 (count_occ_not_In Z.eq_dec l k)); [reflexivity|].
  intro Hi. pose proof (labels_lt 0 l k H Hi). lia.
Qed.
(** Every used label occurs. *)
Lemma occ_used l : forall k g, (k <= g < next_label k l)%Z -> (0 < occ g l)%Z.
Proof.
  induction l as [|a l IH]; intros k g Hg; cbn [next_label] in Hg; [lia|].
  unfold occ. cbn [count_occ]. destruct (Z.eq_dec a g) as [|Hne]; [lia|]. fold (occ g l).
  apply (IH (if (a =? k)%Z then k + 1 else k)%Z). destruct (Z.eqb_spec a k); lia.
Qed.

Lemma label_sizes_length k l : length (label_sizes k l) = Z.to_nat k.
Proof. unfold label_sizes. now rewrite map_length, seq_length. Qed.
Lemma label_sizes_nth k l g : g < Z.to_nat k -> nth_error (label_sizes k l) g = Some (occ (Z.of_nat g) l).
Proof.
  intro H. unfold label_sizes. rewrite nth_error_map.
  rewrite (nth_error_nth' (seq 0 (Z.to_nat k)) 0) by (rewrite seq_length; exact H). cbn. now rewrite seq_nth.
Qed.
Lemma label_sizes_bump k l g : (0 <= g < k)%Z ->
  label_sizes k (l ++ [g]) = upd (label_sizes k l) (Z.to_nat g) (occ g l + 1)%Z.
Proof.
  intro H. apply nth_error_ext. intro i. destruct (Nat.lt_ge_cases i (Z.to_nat k)) as [Hi|Hi].
  - rewrite label_sizes_nth, occ_snoc by auto. destruct (Nat.eq_dec i (Z.to_nat g)) as [->|Hne].
    + rewrite nth_error_upd_eq by (rewrite label_sizes_length; auto). rewrite Z2Nat.id by lia. now rewrite Z.eqb_refl.
    + rewrite nth_error_upd_ne by lia. rewrite label_sizes_nth by auto. destruct (Z.eqb_spec g (Z.of_nat i)); [lia|]. f_equal. lia.
  - transitivity (@None Z); [|symmetry]; apply nth_error_None; rewrite ?length_upd, label_sizes_length; auto.
Qed.
Lemma label_sizes_new k l : (0 <= k)%Z -> label_sizes (k + 1) l = label_sizes k l ++ [occ k l].
Proof.
  intro H. unfold label_sizes. replace (Z.to_nat (k + 1)) with (Z.to_nat k + 1) by lia.
  rewrite seq_app, map_app. cbn [seq map Nat.add]. now rewrite Z2Nat.id.
Qed.
Lemma label_sizes_ext k l a : (k <= a)%Z -> label_sizes k (l ++ [a]) = label_sizes k l.
Proof.
  intro H. unfold label_sizes. apply map_ext_in. intros g Hg. apply in_seq in Hg. rewrite occ_snoc.
  destruct (Z.eqb_spec a (Z.of_nat g)); lia.
Qed.

(** ** Pitman-Yor sampler, any arithmetic *)
Section AnyPY.
  Context {F : Type} {N : Num F}.

  Lemma py_step_shape (m : py F) i u a l k : a <> [] -> labels_from 0 a -> next_label 0 a = k ->
    length l = S (Z.to_nat k) ->
    exists x l', py_sample_step m i u (a, l, k) = Ok (a ++ [Z.of_nat x], l', next_label 0 (a ++ [Z.of_nat x])) /\
      sample_from_likelihoods u l (nadd (nof (Z.of_nat i)) (alpha m)) = Ok x /\
      labels_from 0 (a ++ [Z.of_nat x]) /\
      length l' = S (Z.to_nat (next_label 0 (a ++ [Z.of_nat x]))) /\
      l' = (if (Z.of_nat x =? k)%Z
            then upd (l ++ [nadd (alpha m) (nmul (disc m) (nof (k + 1)%Z))]) x (nsub (nof 1%Z) (disc m))
            else upd l x (nadd (nth x l (nof 0)) (nof 1%Z))).
  Proof.
    intros Ha HL Hk Hlen. pose proof (next_ge 0 a) as Hk0. rewrite Hk in Hk0.
    unfold py_sample_step.
    destruct (sample_likelihoods_range u l (nadd (nof (Z.of_nat i)) (alpha m))) as (x & E & Hx);
      [destruct l; [discriminate|congruence]|].
    rewrite E. cbn [obind]. exists x.
    assert (HL' : labels_from 0 (a ++ [Z.of_nat x])).
    { apply labels_app. split; [exact HL|]. rewrite Hk. cbn [labels_from]. split; [lia|exact I]. }
    assert (Hn : next_label 0 (a ++ [Z.of_nat x]) = if (Z.of_nat x =? k)%Z then (k + 1)%Z else k).
    { rewrite next_app, Hk. reflexivity. }
    rewrite Hn. destruct (Z.eqb_spec (Z.of_nat x) k) as [E1|E1].
    - rewrite vset_ok by (rewrite app_length; simpl; lia). cbn [obind]. eexists. split; [reflexivity|].
      split; [reflexivity|]. split; [exact HL'|]. rewrite length_upd, app_length. simpl. split; [lia|reflexivity].
    - unfold vget. rewrite (nth_error_nth' l (nof 0)) by lia. cbn [obind]. rewrite vset_ok by lia. cbn [obind].
      eexists. split; [reflexivity|]. split; [reflexivity|]. split; [exact HL'|]. rewrite length_upd. auto.
  Qed.

  Lemma py_loop_labels (m : py F) u n : forall lo a l k, a <> [] -> labels_from 0 a -> next_label 0 a = k ->
    length l = S (Z.to_nat k) ->
    exists rest l' k', py_sample_loop m u lo n (a, l, k) = Ok (a ++ rest, l', k') /\
      length rest = n /\ labels_from 0 (a ++ rest).
  Proof.
    induction n as [|n IH]; intros lo a l k Ha HL Hk Hlen; cbn [py_sample_loop].
    - exists [], l, k. rewrite app_nil_r. auto.
    - destruct (py_step_shape m lo (u lo) a l k Ha HL Hk Hlen) as (x & l' & -> & _ & HL' & Hlen' & _). cbn [obind].
      destruct (IH (S lo) (a ++ [Z.of_nat x]) l' _ ltac:(now destruct a) HL' eq_refl Hlen') as (rest & l2 & k2 & E & Hr & HL2).
      exists (Z.of_nat x :: rest), l2, k2. rewrite E. rewrite <- app_assoc in *. cbn [app length] in *. auto.
  Qed.

  Lemma py_sample_labels (m : py F) size u :
    nltb (nof (Z.of_nat size)) (nadd (nof (Z.of_nat size)) (nof 1)) = true ->
    exists a, py_sample_assignments m size u = Ok a /\ length a = size /\ labels_from 0 a.
  Proof.
    intro Hf. unfold py_sample_assignments. rewrite Hf. cbn [dassert obind]. destruct size as [|n].
    - exists []. simpl. auto.
    - cbn [app vset length Nat.ltb Nat.leb obind upd].
      destruct (py_loop_labels m u n 1 [0%Z] [nsub (nof 1%Z) (disc m); nadd (alpha m) (nmul (disc m) (nof 1%Z))] 1%Z)
        as (rest & l' & k' & E & Hr & HL); [discriminate|simpl; lia|reflexivity|reflexivity|].
      rewrite E. cbn [obind fst]. eexists. split; [reflexivity|]. simpl in *. auto.
  Qed.
End AnyPY.

(** ** Pitman-Yor sampler, exact arithmetic *)
Section RPY.
  Variable lg : R -> R.
  Local Instance NR' : Num R := NumR lg.
  Local Open Scope R_scope.
  Variable m : py R.
  Hypothesis Hm : 0 < alpha m /\ 0 <= disc m < 1.

  Notation W a := (py_weights (alpha m) (disc m) a).

  Lemma W_new a : labels_from 0 a -> 
    upd (W a ++ [nadd (alpha m) (nmul (disc m) (nof (next_label 0 a + 1)%Z))]) (Z.to_nat (next_label 0 a)) (nsub (nof 1%Z) (disc m))
    = W (a ++ [next_label 0 a]).
  Proof.
    intros HL. pose proof (next_ge 0 a) as Hk. unfold py_weights. set (k := next_label 0 a) in *.
    assert (En : next_label 0 (a ++ [k]) = (k + 1)%Z).
    { rewrite next_app. fold k. cbn [next_label]. now rewrite Z.eqb_refl. }
    rewrite En, label_sizes_new, label_sizes_ext by lia. rewrite occ_snoc, Z.eqb_refl, occ_fresh by (auto; fold k; lia).
    rewrite map_app, <- !app_assoc. cbn [map app nadd nmul nof nsub NR' NumR].
    replace (Z.to_nat k) with (length (map (fun c => IZR c - disc m) (label_sizes k a))) at 1
      by (rewrite map_length; apply label_sizes_length).
    rewrite upd_app. reflexivity.
  Qed.
  Lemma map_upd {A B} (f : A -> B) l i x : map f (upd l i x) = upd (map f l) i (f x).
  Proof. revert i. induction l as [|y l IH]; intros [|i]; simpl; auto. now rewrite IH. Qed.

  Lemma W_old a x : labels_from 0 a -> (Z.of_nat x < next_label 0 a)%Z ->
    upd (W a) x (nadd (nth x (W a) (nof 0%Z)) (nof 1%Z)) = W (a ++ [Z.of_nat x]).
  Proof.
    intros HL Hx. pose proof (next_ge 0 a) as Hk. unfold py_weights. set (k := next_label 0 a) in *.
    assert (En : next_label 0 (a ++ [Z.of_nat x]) = k).
    { rewrite next_app. fold k. cbn [next_label]. destruct (Z.eqb_spec (Z.of_nat x) k); lia. }
    rewrite En, label_sizes_bump by lia. rewrite Nat2Z.id.
    assert (Hlen : (x < length (label_sizes k a))%nat) by (rewrite label_sizes_length; lia).
    rewrite upd_app1 by (rewrite map_length; exact Hlen). f_equal. rewrite map_upd. f_equal.
    rewrite app_nth1 by (rewrite map_length; exact Hlen).
    assert (E : nth_error (map (fun c => IZR c - disc m) (label_sizes k a)) x = Some (IZR (occ (Z.of_nat x) a) - disc m)).
    { rewrite nth_error_map, label_sizes_nth by lia. reflexivity. }
    rewrite (nth_error_nth _ _ _ E). cbn [nadd nof NR' NumR]. rewrite plus_IZR. lra.
  Qed.

  Lemma W_length a : length (W a) = S (Z.to_nat (next_label 0 a)).
  Proof. unfold py_weights. rewrite app_length, map_length, label_sizes_length. simpl. lia. Qed.

  Lemma occ_total a : labels_from 0 a -> sum_sizes (label_sizes (next_label 0 a) a) = Z.of_nat (length a).
  Proof.
    intro H. induction a as [|x a IH] using rev_ind; [reflexivity|].
    apply labels_app in H. destruct H as [HL [Hx _]]. specialize (IH HL). pose proof (next_ge 0 a) as Hk.
    rewrite next_app. cbn [next_label]. rewrite app_length. cbn [length].
    destruct (Z.eqb_spec x (next_label 0 a)) as [->|Hne].
    - rewrite label_sizes_new, label_sizes_ext by lia. rewrite occ_snoc, Z.eqb_refl, occ_fresh by (auto; lia).
      assert (S_app : forall l1 l2, sum_sizes (l1 ++ l2) = (sum_sizes l1 + sum_sizes l2)%Z) by (induction l1; intros; simpl; [lia|rewrite IHl1; lia]).
      rewrite S_app, IH. simpl. lia.
    - rewrite label_sizes_bump by lia.
      assert (Hn : nth_error (label_sizes (next_label 0 a) a) (Z.to_nat x) = Some (occ x a)).
      { rewrite label_sizes_nth by lia. now rewrite Z2Nat.id by lia. }
      assert (U : forall l i c, nth_error l i = Some c -> sum_sizes (upd l i (c + 1)%Z) = (sum_sizes l + 1)%Z).
      { induction l as [|y l IHl]; intros [|i] c Hc; simpl in *; try discriminate.
        - injection Hc as ->. lia. - rewrite (IHl i c Hc). lia. }
      rewrite (U _ _ _ Hn), IH. lia.
  Qed.
  Lemma W_sum a : labels_from 0 a -> rsum (W a) = IZR (Z.of_nat (length a)) + alpha m.
  Proof.
    intro H. unfold py_weights. pose proof (next_ge 0 a) as Hk.
    assert (E : forall l, rsum (map (fun c => IZR c - disc m) l) = IZR (sum_sizes l) - disc m * INR (length l)).
    { induction l as [|c l IH]; [simpl; lra|]. cbn [map rsum sum_sizes length]. rewrite IH, plus_IZR, S_INR. lra. }
    assert (A : forall l1 l2, rsum (l1 ++ l2) = rsum l1 + rsum l2) by (induction l1; intros; simpl; [lra|rewrite IHl1; lra]).
    rewrite A, E, occ_total, label_sizes_length by auto. simpl. rewrite INR_IZR_INZ, Z2Nat.id by lia. lra.
  Qed.
  Lemma W_nonneg a : labels_from 0 a -> List.Forall (fun x => 0 <= x) (W a).
  Proof.
    intro H. unfold py_weights. apply Forall_app. pose proof (next_ge 0 a) as Hk. split.
    - apply Forall_forall. intros x Hx. apply in_map_iff in Hx. destruct Hx as (c & <- & Hc).
      apply In_nth_error in Hc. destruct Hc as [g Hg].
      assert (Hlt : (g < Z.to_nat (next_label 0 a))%nat) by (rewrite <- (label_sizes_length _ a); apply nth_error_Some; congruence).
      rewrite label_sizes_nth in Hg by auto. injection Hg as <-.
      assert (Ho : (0 < occ (Z.of_nat g) a)%Z) by (apply (occ_used a 0); lia).
      assert (1 <= IZR (occ (Z.of_nat g) a)) by (apply (IZR_le 1); lia). lra.
    - repeat constructor. assert (0 <= IZR (next_label 0 a)) by (apply (IZR_le 0); lia).
      assert (0 <= disc m * IZR (next_label 0 a)) by (apply Rmult_le_pos; lra). lra.
  Qed.

  (** The draw [x] is the inverse-CDF choice for the weights of the prefix [a]. *)
  Definition chosen (u : R) (a : list Z) (x : Z) : Prop :=
    (x <> 0%Z -> cum (W a) (Z.to_nat x) < (IZR (Z.of_nat (length a)) + alpha m) * u) /\
    (IZR (Z.of_nat (length a)) + alpha m) * u <= cum (W a) (S (Z.to_nat x)).

  Lemma py_step_R u a : a <> [] -> labels_from 0 a -> 0 <= u < 1 ->
    exists x, (0 <= x)%Z /\ py_sample_step m (length a) u (a, W a, next_label 0 a) =
        Ok (a ++ [x], W (a ++ [x]), next_label 0 (a ++ [x])) /\ labels_from 0 (a ++ [x]) /\ chosen u a x.
  Proof.
    intros Ha HL Hu. destruct (py_step_shape m (length a) u a (W a) _ Ha HL eq_refl (W_length a))
      as (x & l' & E & Es & HL' & Hlen & El). exists (Z.of_nat x). split; [lia|].
    assert (El2 : l' = W (a ++ [Z.of_nat x])).
    { rewrite El. destruct (Z.eqb_spec (Z.of_nat x) (next_label 0 a)) as [Ek|Ek].
      - rewrite Ek. rewrite <- (W_new a HL). f_equal. lia.
      - apply W_old; auto. apply labels_app in HL'. destruct HL' as [_ [H _]]. lia. }
    rewrite El2 in E. split; [exact E|]. split; [exact HL'|].
    cbn [nof nadd NR' NumR] in Es. rewrite <- (W_sum a HL) in Es.
    apply (likelihoods_cdf lg) in Es; auto; [|intro Hnil; apply (f_equal (@length R)) in Hnil; rewrite W_length in Hnil; discriminate|apply W_nonneg; auto].
    destruct Es as (_ & E1 & E2). rewrite (W_sum a HL) in *. unfold chosen. rewrite Nat2Z.id. split; [|exact E2].
    intro. apply E1. lia.
  Qed.

  Lemma py_loop_R u n : (forall i, 0 <= u i < 1) -> forall a, a <> [] -> labels_from 0 a ->
    exists rest, py_sample_loop m u (length a) n (a, W a, next_label 0 a) =
        Ok (a ++ rest, W (a ++ rest), next_label 0 (a ++ rest)) /\ length rest = n /\
      labels_from 0 (a ++ rest) /\
      (forall p x q, a ++ rest = p ++ x :: q -> (length a <= length p)%nat -> chosen (u (length p)) p x).
  Proof.
    intro Hu. induction n as [|n IH]; intros a Ha HL; cbn [py_sample_loop].
    - exists []. rewrite app_nil_r. split; [reflexivity|]. split; [reflexivity|]. split; [auto|].
      intros p x q E Hp. apply (f_equal (@length Z)) in E. rewrite app_length in E. simpl in E. lia.
    - destruct (py_step_R (u (length a)) a Ha HL (Hu _)) as (x & Hx & -> & HL' & HC). cbn [obind].
      destruct (IH (a ++ [x]) ltac:(now destruct a) HL') as (rest & E & Hlen & HL2 & Hall).
      rewrite app_length in E. simpl in E. rewrite Nat.add_1_r in E. rewrite E.
      exists (x :: rest). rewrite <- !app_assoc in *. cbn [app] in *. split; [reflexivity|]. split; [simpl; lia|].
      split; [exact HL2|]. intros p y q Ep Hp.
      destruct (Nat.eq_dec (length a) (length p)) as [El|El].
      + assert (Hap : a = p /\ x :: rest = y :: q).
        { clear - Ep El. revert p El Ep. induction a as [|b a IHa]; intros [|c p] El Ep; simpl in *; try discriminate; [auto|].
          injection Ep as -> Ep. destruct (IHa p ltac:(lia) Ep). subst. auto. }
        destruct Hap as [<- [= <- _]]. exact HC.
      + apply (Hall p y q); [exact Ep|]. rewrite app_length. simpl. lia.
  Qed.

  Lemma py_sample_R size u : (forall i, 0 <= u i < 1) ->
    exists a, py_sample_assignments m size u = Ok a /\ length a = size /\ labels_from 0 a /\
      (forall p x q, a = p ++ x :: q -> p <> [] -> chosen (u (length p)) p x) /\
      (forall p q, a = p ++ q -> rsum (W p) = IZR (Z.of_nat (length p)) + alpha m).
  Proof.
    intro Hu. unfold py_sample_assignments. cbn [nltb nadd nof NR' NumR].
    destruct (rltb_spec (IZR (Z.of_nat size)) (IZR (Z.of_nat size) + 1)); [|lra]. cbn [dassert obind].
    assert (HS : forall a, labels_from 0 a -> forall p q, a = p ++ q -> rsum (W p) = IZR (Z.of_nat (length p)) + alpha m).
    { intros a H p q ->. apply W_sum. apply labels_app in H. tauto. }
    destruct size as [|n].
    - exists []. simpl. split; [reflexivity|]. split; [reflexivity|]. split; [auto|]. split.
      + intros [|? ?] ? ? E; discriminate.
      + intros p q E. symmetry in E. apply app_eq_nil in E. destruct E as [-> ->]. apply W_sum. exact I.
    - cbn [app vset length Nat.ltb Nat.leb obind upd].
      assert (L1 : labels_from 0 [0%Z]) by (simpl; lia).
      destruct (py_loop_R u n Hu [0%Z] ltac:(discriminate) L1) as (rest & E & Hlen & HL & Hall).
      assert (EW : W [0%Z] = [1 - disc m; alpha m + disc m * 1]) by reflexivity.
      rewrite EW in E. cbn [length next_label Z.eqb] in E. cbn [nsub nadd nmul nof NR' NumR].
      change (0 + 1)%Z with 1%Z in E. rewrite E. cbn [obind fst]. eexists. split; [reflexivity|].
      split; [simpl; lia|]. split; [exact HL|]. split; [|apply (HS _ HL)].
      intros p x q Ep Hp. apply (Hall p x q Ep). destruct p; [congruence|simpl; lia].
  Qed.
End RPY.

(** ** Low-entropy sampler *)
Section LE.
  Context {F : Type} {N : Num F}.
  Variable dl : nat.
  Variable dataset : Z.

  Lemma le_add_ok c n : (0 <= n < dataset)%Z -> exists s, le_score_add (F := F) dl dataset c 0 n 1 = Ok s.
  Proof.
    intro H. unfold le_score_add.
    rewrite !dassert_at_true by (first [apply Z.ltb_lt|apply Z.leb_le]; lia). cbn [obind].
    destruct (c =? 0)%Z; [|destruct (10000 <? c)%Z; eauto].
    destruct (Z.ltb_spec (n + 1) dataset); [|eauto]. unfold le_postpred.
    rewrite !dassert_at_true by (apply Z.ltb_lt; lia). cbn [obind]. eauto.
  Qed.
  (** A non-empty group's score does not look at the sample size. *)
  Lemma le_add_nonempty c n n' s : c <> 0%Z -> (0 <= n < dataset)%Z -> (0 <= n' < dataset)%Z ->
    le_score_add (F := F) dl dataset c 0 n 1 = Ok s -> le_score_add (F := F) dl dataset c 0 n' 1 = Ok s.
  Proof.
    intros Hc H H'. unfold le_score_add.
    rewrite !dassert_at_true by (first [apply Z.ltb_lt|apply Z.leb_le]; lia). cbn [obind].
    destruct (Z.eqb_spec c 0); [contradiction|]. auto.
  Qed.

  Definition weight (n c : Z) (w : F) : Prop := exists s, le_score_add dl dataset c 0 n 1 = Ok s /\ w = nexp s.
  Definition sizes_of (a : list Z) : list Z := label_sizes (next_label 0 a) a.
  (** Counts vector held by the sampler between iterations: the group sizes, perhaps
      followed by one empty group. *)
  Definition le_inv (a cs : list Z) (ls : list F) : Prop :=
    labels_from 0 a /\ Forall2 (fun c w => c <> 0%Z -> weight 0 c w) cs ls /\
    (cs = sizes_of a \/ cs = sizes_of a ++ [0%Z]).

  Lemma sizes_pos a : Forall (fun c => 0 < c)%Z (sizes_of a).
  Proof.
    apply Forall_forall. intros c Hc. apply In_nth_error in Hc. destruct Hc as [g Hg]. unfold sizes_of in Hg.
    assert (Hlt : g < Z.to_nat (next_label 0 a)) by (rewrite <- (label_sizes_length _ a); apply nth_error_Some; congruence).
    rewrite label_sizes_nth in Hg by auto. injection Hg as <-. apply (occ_used a 0). lia.
  Qed.
  Lemma sizes_bump a x : (0 <= x < next_label 0 a)%Z -> sizes_of (a ++ [x]) = upd (sizes_of a) (Z.to_nat x) (occ x a + 1)%Z.
  Proof.
    intro H. unfold sizes_of. rewrite next_app. cbn [next_label].
    destruct (Z.eqb_spec x (next_label 0 a)); [lia|]. apply label_sizes_bump. lia.
  Qed.
  Lemma sizes_new a : labels_from 0 a -> sizes_of (a ++ [next_label 0 a]) = sizes_of a ++ [1%Z].
  Proof.
    intro H. pose proof (next_ge 0 a). unfold sizes_of. rewrite next_app. cbn [next_label]. rewrite Z.eqb_refl.
    rewrite label_sizes_new, label_sizes_ext by lia. rewrite occ_snoc, Z.eqb_refl, occ_fresh by (auto; lia). reflexivity.
  Qed.
  Lemma Forall2_upd {A B} (P : A -> B -> Prop) l1 l2 i x y : Forall2 P l1 l2 -> P x y -> Forall2 P (upd l1 i x) (upd l2 i y).
  Proof. intros H Hxy. revert i. induction H; intros [|i]; simpl; constructor; auto. Qed.
  Lemma Forall2_len {A B} (P : A -> B -> Prop) l1 l2 : Forall2 P l1 l2 -> length l1 = length l2.
  Proof. intro H. induction H; simpl; auto. Qed.
  Lemma occ_bound g a : (occ g a <= Z.of_nat (length a))%Z.
  Proof. unfold occ. pose proof (count_occ_bound Z.eq_dec g a). lia. Qed.

  (** Weights from which entry number [length p] is drawn. *)
  Definition drawn_from (u : F) (p : list Z) (x : Z) : Prop :=
    exists ws, Forall2 (weight (Z.of_nat (length p))) (sizes_of p ++ [0%Z]) ws /\
      sample_from_likelihoods_sum u ws = Ok (Z.to_nat x).

  Lemma le_step_ok u a cs ls : le_inv a cs ls -> (Z.of_nat (length a) < dataset <= i32_max)%Z ->
    exists x cs' ls', (0 <= x)%Z /\ le_sample_step dl dataset u (a, cs, ls, Z.of_nat (length a)) =
        Ok (a ++ [x], cs', ls', Z.of_nat (length (a ++ [x]))) /\ le_inv (a ++ [x]) cs' ls' /\ drawn_from u a x.
  Proof.
    intros (HL & H2 & Hcs) Hn. unfold le_sample_step.
    destruct (le_add_ok 0 (Z.of_nat (length a))) as (s & Es); [lia|]. rewrite Es. cbn [obind].
    pose proof (next_ge 0 a) as Hk.
    assert (Hsl : length (sizes_of a) = Z.to_nat (next_label 0 a)) by apply label_sizes_length.
    pose proof (Forall2_len _ _ _ H2) as Hlen.
    (* after the empty group is in place *)
    assert (HE : exists ls1, Forall2 (weight (Z.of_nat (length a))) (sizes_of a ++ [0%Z]) ls1 /\
      (match cs with
      | [] => Ok ([0%Z], ls ++ [nexp s])
      | _ =>
          let* back := vget cs (length cs - 1) in
          if negb (back =? 0)%Z then Ok (cs ++ [0%Z], ls ++ [nexp s])
          else let* ls' := vset ls (length ls - 1) (nexp s) in Ok (cs, ls')
      end) = Ok (sizes_of a ++ [0%Z], ls1)).
    { assert (HW : forall c w, c <> 0%Z -> weight 0 c w -> weight (Z.of_nat (length a)) c w).
      { intros c w Hc (s' & Es' & ->). exists s'. split; [|reflexivity]. apply (le_add_nonempty c 0); auto; lia. }
      assert (HP : forall l w, Forall (fun c => 0 < c)%Z l -> Forall2 (fun c w => c <> 0%Z -> weight 0 c w) l w ->
         Forall2 (weight (Z.of_nat (length a))) l w).
      { intros l w Hl H. induction H; constructor.
        - apply HW; [|apply H]; apply Forall_inv in Hl; lia.
        - apply IHForall2. now apply Forall_inv_tail in Hl. }
      assert (H0 : weight (Z.of_nat (length a)) 0 (nexp s)) by (exists s; auto).
      destruct Hcs as [->| ->].
      - exists (ls ++ [nexp s]). split.
        + apply Forall2_app; [apply HP; auto; apply sizes_pos|repeat constructor; auto].
        + destruct (sizes_of a) as [|c0 cs0] eqn:E0; [reflexivity|].
          rewrite <- E0 in *.
          destruct (vget_some (sizes_of a) (length (sizes_of a) - 1)) as (b & Hb & ->); [rewrite E0; simpl; lia|].
          cbn [obind]. pose proof (sizes_pos a) as HP0. rewrite Forall_forall in HP0.
          specialize (HP0 b (nth_error_In _ _ Hb)). destruct (Z.eqb_spec b 0); [lia|]. cbn [negb]. reflexivity.
      - rewrite app_length in Hlen. simpl in Hlen.
        apply Forall2_app_inv_l in H2. destruct H2 as (w1 & w2 & Hw1 & Hw2 & ->).
        inversion Hw2 as [|? y ? t Hy Ht]; subst. inversion Ht; subst.
        exists (w1 ++ [nexp s]). split.
        + apply Forall2_app; [apply HP; auto; apply sizes_pos|repeat constructor; auto].
        + rewrite !app_length. cbn [length]. replace (length (sizes_of a) + 1 - 1) with (length (sizes_of a)) by lia.
          replace (length w1 + 1 - 1) with (length w1) by lia. rewrite vget_app, vset_app. cbn [obind].
          change (0 =? 0)%Z with true. cbn [negb]. destruct (sizes_of a ++ [0%Z]) eqn:E0; [|reflexivity].
          destruct (sizes_of a); discriminate. }
    destruct HE as (ls1 & Hls1 & ->). cbn [obind].
    pose proof (Forall2_len _ _ _ Hls1) as Hlen1. rewrite app_length in Hlen1. simpl in Hlen1.
    destruct (sample_likelihoods_sum_range u ls1) as (x & Ex & Hx); [intros ->; simpl in Hlen1; lia|].
    rewrite Ex. cbn [obind].
    set (c := occ (Z.of_nat x) a).
    assert (Hc : nth_error (sizes_of a ++ [0%Z]) x = Some c).
    { destruct (Nat.lt_ge_cases x (length (sizes_of a))).
      - rewrite nth_error_app1 by auto. unfold sizes_of. rewrite label_sizes_nth by lia. reflexivity.
      - rewrite nth_error_app2 by lia. replace (x - length (sizes_of a)) with 0 by lia. simpl.
        unfold c. rewrite occ_fresh; [reflexivity|auto|lia]. }
    rewrite (vget_nth _ _ _ Hc). cbn [obind].
    assert (Hcb : (0 <= c <= Z.of_nat (length a))%Z) by (split; [unfold c, occ; lia|apply occ_bound]).
    rewrite i32_ok by (unfold i32_min, i32_max in *; lia). cbn [obind].
    rewrite vset_ok by (rewrite app_length; simpl; lia). cbn [obind].
    destruct (le_add_ok (c + 1) 0) as (s' & Es'); [lia|]. rewrite Es'. cbn [obind].
    rewrite vset_ok by lia. cbn [obind].
    exists (Z.of_nat x). do 2 eexists. split; [lia|]. split; [|split].
    - do 2 f_equal. rewrite app_length. simpl. lia.
    - assert (HL' : labels_from 0 (a ++ [Z.of_nat x])).
      { apply labels_app. split; auto. cbn [labels_from]. split; [lia|exact I]. }
      split; [exact HL'|]. split.
      + apply Forall2_upd.
        * assert (G : forall l w, Forall2 (weight (Z.of_nat (length a))) l w -> Forall2 (fun c w => c <> 0%Z -> weight 0 c w) l w).
          { intros l w G. induction G as [|c0 w0 l w Hc0 _ IH]; constructor; auto.
            intro Hne. destruct Hc0 as (s0 & E0 & ->). exists s0. split; auto.
            apply (le_add_nonempty c0 (Z.of_nat (length a))); auto; lia. }
          apply G. exact Hls1.
        * intros _. exists s'. auto.
      + destruct (Nat.lt_ge_cases x (length (sizes_of a))) as [Hlt|Hge].
        * right. rewrite sizes_bump by lia. rewrite Nat2Z.id. fold c.
          apply upd_app1. exact Hlt.
        * left. assert (Hxk : Z.of_nat x = next_label 0 a) by lia. rewrite Hxk, sizes_new by auto.
          replace x with (length (sizes_of a)) by lia. rewrite upd_app. unfold c. rewrite Hxk, occ_fresh by (auto; lia). reflexivity.
    - exists ls1. rewrite Nat2Z.id. auto.
  Qed.

  Lemma le_loop_ok u n : forall a cs ls, le_inv a cs ls -> (Z.of_nat (length a + n) <= dataset <= i32_max)%Z ->
    exists rest st, le_sample_loop dl dataset u (length a) n (a, cs, ls, Z.of_nat (length a)) = Ok st /\
      fst (fst (fst st)) = a ++ rest /\ length rest = n /\ labels_from 0 (a ++ rest) /\
      (forall p x q, a ++ rest = p ++ x :: q -> length a <= length p -> drawn_from (u (length p)) p x).
  Proof.
    induction n as [|n IH]; intros a cs ls H Hn; cbn [le_sample_loop].
    - exists []. eexists. split; [reflexivity|]. cbn [fst]. rewrite app_nil_r.
      split; [reflexivity|]. split; [reflexivity|]. split; [apply H|].
      intros p x q E Hp. apply (f_equal (@length Z)) in E. rewrite app_length in E. simpl in E. lia.
    - destruct (le_step_ok (u (length a)) a cs ls H ltac:(lia)) as (x & cs' & ls' & Hx & -> & H' & HD). cbn [obind].
      destruct (IH (a ++ [x]) cs' ls' H') as (rest & st & E & E1 & Hlen & HL & Hall); [rewrite app_length; simpl; lia|].
      rewrite app_length in E. cbn [length] in E. rewrite Nat.add_1_r in E.
      rewrite app_length. cbn [length]. rewrite Nat.add_1_r. rewrite E.
      exists (x :: rest), st. rewrite <- !app_assoc in *. cbn [app] in *. split; [reflexivity|]. split; [exact E1|].
      split; [simpl; lia|]. split; [exact HL|]. intros p y q Ep Hp.
      destruct (Nat.eq_dec (length a) (length p)) as [El|El].
      + assert (Hap : a = p /\ x :: rest = y :: q).
        { clear - Ep El. revert p El Ep. induction a as [|b a IHa]; intros [|c p] El Ep; simpl in *; try discriminate; [auto|].
          injection Ep as -> Ep. destruct (IHa p ltac:(lia) Ep). subst. auto. }
        destruct Hap as [<- [= <- _]]. exact HD.
      + apply (Hall p y q); [exact Ep|]. rewrite app_length. simpl. lia.
  Qed.

  Lemma le_sample_ok n u : (Z.of_nat n <= dataset < 2 ^ 31)%Z ->
    exists a, le_sample_assignments dl dataset n u = Ok a /\ length a = n /\ labels_from 0 a /\
      (forall p x q, a = p ++ x :: q -> drawn_from (u (length p)) p x).
  Proof.
    intro H. unfold le_sample_assignments. destruct (Z.leb_spec (Z.of_nat n) dataset); [|lia]. cbn [dassert obind].
    destruct (le_loop_ok u n [] [] []) as (rest & st & E & E1 & Hlen & HL & Hall).
    - split; [exact I|]. split; [constructor|left; reflexivity].
    - unfold i32_max. cbn [length Nat.add]. lia.
    - cbn [length] in E. change (Z.of_nat 0) with 0%Z in E. rewrite E. cbn [obind]. rewrite E1.
      exists rest. split; [reflexivity|]. split; [exact Hlen|]. split; [exact HL|].
      intros p x q Ep. apply (Hall p x q Ep). simpl. lia.
  Qed.

  Lemma le_sample_too_big n u : (dataset < Z.of_nat n)%Z -> le_sample_assignments dl dataset n u = Fail.
  Proof. intro H. unfold le_sample_assignments. destruct (Z.leb_spec (Z.of_nat n) dataset); [lia|]. reflexivity. Qed.
End LE.

(** ** Low-entropy scores *)
Section LEscore.
  Context {F : Type} {N : Num F}.

  Lemma le_remove_partial dl dataset gs k n e : (1 <= gs)%Z -> (0 <= k <= n)%Z -> ((n + 1 < dataset)%Z \/ dl = O /\ (n < dataset)%Z) -> (0 < e)%Z ->
    exists s : F, le_score_add dl dataset gs k n e = Ok s /\ le_score_remove dl dataset (gs + 1) k (n + 1) e = Ok (nneg s).
  Proof.
    intros Hg Hk Hn He. unfold le_score_remove. replace (gs + 1 - 1)%Z with gs by lia.
    assert (E : forall m, (k <= m)%Z -> ((m < dataset)%Z \/ dl = O) ->
      le_score_add (F := F) dl dataset gs k m e = le_score_add dl dataset gs k n e).
    { intros m Hm Hd. unfold le_score_add. destruct (Z.eqb_spec gs 0); [lia|].
      destruct Hd as [Hd| ->]; [|reflexivity].
      rewrite !dassert_at_true; auto; first [apply Z.ltb_lt|apply Z.leb_le]; lia. }
    rewrite (dassert_at_true dl 1 (0 <? n + 1)%Z) by (apply Z.ltb_lt; lia). cbn [obind].
    rewrite (E (n + 1)%Z) by lia. unfold le_score_add.
    rewrite !dassert_at_true by (first [apply Z.ltb_lt|apply Z.leb_le]; lia). cbn [obind].
    destruct (Z.eqb_spec gs 0); [lia|]. destruct (10000 <? gs)%Z; eexists; split; reflexivity.
  Qed.

  Lemma le_remove_aborts dl gs k n e : 1 <= dl -> (0 <= n)%Z ->
    le_score_remove (F := F) dl (n + 1) (gs + 1) k (n + 1) e = Fail.
  Proof.
    intros Hd Hn. unfold le_score_remove.
    rewrite (dassert_at_true dl 1 (0 <? n + 1)%Z) by (apply Z.ltb_lt; lia). cbn [obind].
    unfold le_score_add. unfold dassert_at at 1. destruct (Nat.leb_spec 1 dl); [|lia].
    rewrite Z.ltb_irrefl. reflexivity.
  Qed.
End LEscore.

Section LER.
  Variable lg : R -> R.
  Local Instance NR2 : Num R := NumR lg.
  Local Open Scope R_scope.

  Lemma le_remove_refuted dl :
    exists s, le_score_add dl 2 0 0 0 1 = Ok s /\ 0 < s /\ le_score_remove dl 2 1 1 1 1 = Ok 0.
  Proof.
    unfold le_score_remove, le_score_add, le_postpred.
    repeat (rewrite !dassert_at_true by reflexivity; cbn [obind Z.eqb Z.ltb Z.sub Z.add Z.opp Z.pos_sub Z.compare Pos.compare Pos.compare_cont Pos.add Pos.succ Z.succ_double Z.pred_double]).
    cbn [nneg nlog nof nadd nmul nsub ndiv nlit NR2 NumR]. rewrite ln_1.
    eexists. split; [reflexivity|]. split; [|
      change (1 - 1 =? 0)%Z with true; change (1 + 1 <? 2)%Z with false; cbn [obind]; f_equal; lra].
    replace (2 / 1) with 2 by lra. assert (0 < ln 2) by (rewrite <- ln_1; apply ln_increasing; lra).
    change (IZR (0 + 1)) with 1. replace (2 / 1) with 2 by lra. lra.
  Qed.

  (** Entropy-like term c log c of one group. *)
  Definition clogc (c : Z) : R := if (1 <? c)%Z then IZR c * ln (IZR c) else 0.
  Lemma clogc_0 : clogc 0 = 0. Proof. reflexivity. Qed.

  Lemma sum_nonneg cs : Forall (fun c => 0 <= c)%Z cs -> (0 <= sum_sizes cs)%Z.
  Proof. intro H. induction H; simpl; lia. Qed.

  Lemma le_counts_loop_ok cs : Forall (fun c => 0 <= c)%Z cs -> forall s n, (0 <= n <= i32_max)%Z ->
    le_counts_loop s n cs = if (n + sum_sizes cs <=? i32_max)%Z then Ok (s + rsum (map clogc cs), (n + sum_sizes cs)%Z) else UB.
  Proof.
    intro H. induction H as [|c cs Hc Hcs IH]; intros s n Hn; cbn [le_counts_loop sum_sizes map rsum].
    - rewrite Z.add_0_r. destruct (Z.leb_spec n i32_max); [|lia]. do 2 f_equal. lra.
    - pose proof (sum_nonneg cs Hcs). destruct (Z.leb_spec (n + c) i32_max).
      + rewrite i32_ok by (unfold i32_min; lia). cbn [obind]. rewrite IH by lia.
        replace (n + c + sum_sizes cs)%Z with (n + (c + sum_sizes cs))%Z by lia.
        destruct (n + (c + sum_sizes cs) <=? i32_max)%Z; [|reflexivity]. do 2 f_equal. unfold clogc at 2.
        cbn [nadd nmul nof nlog NR2 NumR]. destruct (1 <? c)%Z; lra.
      + unfold i32. destruct (Z.leb_spec (n + c) i32_max); [lia|]. rewrite andb_false_r. cbn [obind].
        destruct (Z.leb_spec (n + (c + sum_sizes cs)) i32_max); [lia|reflexivity].
  Qed.

  Lemma sum_sizes_perm cs cs' : Permutation cs cs' -> sum_sizes cs = sum_sizes cs'.
  Proof. intro H. induction H; simpl; lia. Qed.
  Lemma rsum_perm l l' : Permutation l l' -> rsum l = rsum l'.
  Proof. intro H. induction H; simpl; lra. Qed.

  Lemma le_score_counts_perm dl table dataset cs cs' : Forall (fun c => 0 <= c)%Z cs -> Permutation cs cs' ->
    le_score_counts dl table dataset cs = le_score_counts dl table dataset cs'.
  Proof.
    intros H HP. assert (H' : Forall (fun c => 0 <= c)%Z cs') by (rewrite Forall_forall in *; intros c Hc; apply H; eapply Permutation_in; [symmetry; exact HP|exact Hc]).
    unfold le_score_counts. rewrite !le_counts_loop_ok by (auto; unfold i32_max; lia).
    rewrite (sum_sizes_perm _ _ HP), (rsum_perm _ _ (Permutation_map clogc HP)), (Permutation_length HP). reflexivity.
  Qed.

  Lemma le_score_counts_full dl table dataset cs lp : Forall (fun c => 0 <= c)%Z cs -> sum_sizes cs = dataset -> (dataset <= i32_max)%Z ->
    le_log_partition table dataset = Ok lp ->
    le_score_counts dl table dataset cs = Ok (rsum (map clogc cs) - lp).
  Proof.
    intros H Hs Hd Hl. pose proof (sum_nonneg cs H). unfold le_score_counts.
    rewrite le_counts_loop_ok by (auto; unfold i32_max; lia). rewrite Z.add_0_l, Hs.
    destruct (Z.leb_spec dataset i32_max); [|lia]. cbn [obind]. rewrite Z.leb_refl, Z.eqb_refl. cbn [dassert obind].
    rewrite Hl. cbn [obind nsub nof NR2 NumR]. do 2 f_equal. lra.
  Qed.
  Lemma le_score_counts_empty_full dl table dataset cs : Forall (fun c => 0 <= c)%Z cs -> sum_sizes cs = dataset ->
    le_score_counts dl table dataset (cs ++ [0%Z]) = le_score_counts dl table dataset cs.
  Proof.
    intros H Hs. assert (H' : Forall (fun c => 0 <= c)%Z (cs ++ [0%Z])) by (apply Forall_app; split; [auto|repeat constructor; lia]).
    assert (S_app : forall l1 l2, sum_sizes (l1 ++ l2) = (sum_sizes l1 + sum_sizes l2)%Z) by (induction l1; intros; simpl; [lia|rewrite IHl1; lia]).
    assert (A : forall l1 l2, rsum (l1 ++ l2) = rsum l1 + rsum l2) by (induction l1; intros; simpl; [lra|rewrite IHl1; lra]).
    unfold le_score_counts. rewrite !le_counts_loop_ok by (auto; unfold i32_max; lia).
    rewrite S_app, map_app, A. cbn [map rsum sum_sizes]. rewrite clogc_0, Z.add_0_r, Hs. rewrite !Rplus_0_r, Z.add_0_l.
    destruct (dataset <=? i32_max)%Z; [|reflexivity]. cbn [obind]. rewrite Z.eqb_refl. reflexivity.
  Qed.
  Lemma le_score_counts_empty_refuted dl table lp : nth_error table 1 = Some lp ->
    exists s, le_score_counts dl table 2 [1%Z] = Ok s /\ le_score_counts dl table 2 [1%Z; 0%Z] = Ok (s + 3 / 10 * ln 2).
  Proof.
    intro Hl. unfold le_score_counts.
    rewrite !le_counts_loop_ok by (try (repeat constructor; lia); unfold i32_max; lia).
    change (0 + sum_sizes [1%Z] <=? i32_max)%Z with true. change (0 + sum_sizes [1%Z; 0%Z] <=? i32_max)%Z with true.
    cbn [obind]. change (0 + sum_sizes [1%Z])%Z with 1%Z. change (0 + sum_sizes [1%Z; 0%Z])%Z with 1%Z.
    change (1 <=? 2)%Z with true. change (1 =? 2)%Z with false. cbn [dassert obind].
    unfold le_postpred. rewrite !dassert_at_true by reflexivity. cbn [obind].
    unfold le_log_partition. change (1 <? 48)%Z with true. change (1 <? 0)%Z with false. change (Z.to_nat 1) with 1%nat.
    unfold vget. cbv iota. rewrite Hl. cbn [obind length].
    change ((Z.of_nat 1 - 1) mod 2 ^ 64)%Z with 0%Z. change ((Z.of_nat 2 - 1) mod 2 ^ 64)%Z with 1%Z.
    cbn [nlog nof nadd nmul nsub ndiv nlit NR2 NumR map rsum].
    change (clogc 1) with 0. change (clogc 0) with 0.
    eexists. split; [reflexivity|]. f_equal. replace (2 / 1) with 2 by lra. lra.
  Qed.

  Lemma ln_below y t : 0 < y -> y <= exp t -> ln y <= t.
  Proof. intros Hy [H| ->]; [|rewrite ln_exp; lra]. rewrite <- (ln_exp t). apply Rlt_le, ln_increasing; auto. Qed.
  (** The exact increment of c log c when a group of size c gets one more value. *)
  Lemma le_add_exact dl dataset c n : (1 <= c <= 10000)%Z -> (0 <= n < dataset)%Z ->
    le_score_add dl dataset c 0 n 1 = Ok (clogc (c + 1) - clogc c).
  Proof.
    intros Hc Hn. unfold le_score_add.
    rewrite !dassert_at_true by (first [apply Z.ltb_lt|apply Z.leb_le]; lia). cbn [obind].
    destruct (Z.eqb_spec c 0); [lia|]. destruct (Z.ltb_spec 10000 c); [lia|]. f_equal.
    cbn [nlog nof nadd nmul ndiv NR2 NumR]. unfold clogc. destruct (Z.ltb_spec 1 (c + 1)); [|lia].
    assert (0 < IZR c) by (apply (IZR_lt 0); lia). rewrite plus_IZR, (Rplus_comm 1 (IZR c)).
    unfold Rdiv. rewrite ln_mult, ln_Rinv by (try apply Rinv_0_lt_compat; lra).
    destruct (Z.ltb_spec 1 c); [lra|]. replace c with 1%Z by lia. rewrite ln_1. lra.
  Qed.
  Lemma le_add_large dl dataset c n : (10000 < c)%Z -> (0 <= n < dataset)%Z ->
    exists s, le_score_add dl dataset c 0 n 1 = Ok s /\ 0 <= s - (clogc (c + 1) - clogc c) <= 1 / IZR (c + 1).
  Proof.
    intros Hc Hn. unfold le_score_add.
    rewrite !dassert_at_true by (first [apply Z.ltb_lt|apply Z.leb_le]; lia). cbn [obind].
    destruct (Z.eqb_spec c 0); [lia|]. destruct (Z.ltb_spec 10000 c); [|lia]. eexists. split; [reflexivity|].
    cbn [nlog nof nadd nmul ndiv NR2 NumR]. unfold clogc. destruct (Z.ltb_spec 1 (c + 1)); [|lia]. destruct (Z.ltb_spec 1 c); [|lia].
    assert (Hp : 0 < IZR c) by (apply (IZR_lt 0); lia). rewrite plus_IZR, (Rplus_comm 1 (IZR c)). set (x := IZR c) in *.
    assert (L : ln (x + 1) - ln x <= 1 / x).
    { replace (ln (x + 1) - ln x) with (ln ((x + 1) / x)) by (unfold Rdiv; rewrite ln_mult, ln_Rinv by (try apply Rinv_0_lt_compat; lra); lra).
      assert (E : (x + 1) / x = 1 + 1 / x) by (field; lra). rewrite E.
      assert (0 < 1 / x) by (apply Rdiv_lt_0_compat; lra).
      apply ln_below; [lra|]. apply exp_ineq1_le. }
    assert (U : 1 / (x + 1) <= ln (x + 1) - ln x).
    { replace (ln (x + 1) - ln x) with (- ln (x / (x + 1))) by (unfold Rdiv; rewrite ln_mult, ln_Rinv by (try apply Rinv_0_lt_compat; lra); lra).
      assert (E : x / (x + 1) = 1 + - (1 / (x + 1))) by (field; lra).
      assert (0 < 1 / (x + 1)) by (apply Rdiv_lt_0_compat; lra).
      enough (ln (x / (x + 1)) <= - (1 / (x + 1))) by lra.
      apply ln_below; [apply Rdiv_lt_0_compat; lra|]. rewrite E. apply exp_ineq1_le. }
    assert (E1 : x * (1 / x) = 1) by (field; lra). assert (E2 : x * (1 / (x + 1)) = 1 - 1 / (x + 1)) by (field; lra).
    assert (x * (ln (x + 1) - ln x) <= 1) by (apply Rle_trans with (x * (1 / x)); [apply Rmult_le_compat_l; lra|lra]).
    assert (1 - 1 / (x + 1) <= x * (ln (x + 1) - ln x)) by (rewrite <- E2; apply Rmult_le_compat_l; lra).
    split; lra.
  Qed.

  Lemma rsum_upd l i x y : nth_error l i = Some x -> rsum (upd l i y) = rsum l - x + y.
  Proof. revert i. induction l as [|z l IH]; intros [|i] H; simpl in *; try discriminate; [injection H as ->; lra|]. rewrite (IH i H). lra. Qed.
  Lemma sum_sizes_upd l i x y : nth_error l i = Some x -> sum_sizes (upd l i y) = (sum_sizes l - x + y)%Z.
  Proof. revert i. induction l as [|z l IH]; intros [|i] H; simpl in *; try discriminate; [injection H as ->; lia|]. rewrite (IH i H). lia. Qed.
  Lemma Forall_upd {A} (P : A -> Prop) l i x : Forall P l -> P x -> Forall P (upd l i x).
  Proof. intros H Hx. revert i. induction H; intros [|i]; simpl; constructor; auto. Qed.

  (** Joint score difference between joining group g and opening a new group for the last value. *)
  Lemma le_last_value dl table dataset cs g c lp : Forall (fun c => 1 <= c)%Z cs -> (sum_sizes cs + 1 = dataset)%Z ->
    (dataset <= i32_max)%Z -> le_log_partition table dataset = Ok lp -> nth_error cs g = Some c ->
    exists s1 s0 a1 a0, le_score_counts dl table dataset (upd cs g (c + 1)%Z) = Ok s1 /\
      le_score_counts dl table dataset (cs ++ [1%Z]) = Ok s0 /\
      le_score_add dl dataset c 0 (dataset - 1) 1 = Ok a1 /\ le_score_add dl dataset 0 0 (dataset - 1) 1 = Ok a0 /\
      ((c <= 10000)%Z -> a1 - a0 = s1 - s0) /\ 0 <= (a1 - a0) - (s1 - s0) <= 1 / IZR (c + 1).
  Proof.
    intros H Hs Hd Hl Hg.
    assert (H0 : Forall (fun c => 0 <= c)%Z cs) by (eapply Forall_impl; [|exact H]; simpl; intros; lia).
    assert (Hc : (1 <= c)%Z) by (rewrite Forall_forall in H; apply H; eapply nth_error_In; eauto).
    pose proof (sum_nonneg cs H0).
    assert (S_app : forall l1 l2, sum_sizes (l1 ++ l2) = (sum_sizes l1 + sum_sizes l2)%Z) by (induction l1; intros; simpl; [lia|rewrite IHl1; lia]).
    assert (A : forall l1 l2, rsum (l1 ++ l2) = rsum l1 + rsum l2) by (induction l1; intros; simpl; [lra|rewrite IHl1; lra]).
    rewrite (le_score_counts_full dl table dataset (upd cs g (c + 1)%Z) lp);
      [|apply Forall_upd; auto; lia|rewrite (sum_sizes_upd _ _ _ _ Hg); lia|auto|auto].
    rewrite (le_score_counts_full dl table dataset (cs ++ [1%Z]) lp);
      [|apply Forall_app; split; auto; repeat constructor; lia|rewrite S_app; simpl; lia|auto|auto].
    assert (E0 : le_score_add dl dataset 0 0 (dataset - 1) 1 = Ok 0).
    { unfold le_score_add. rewrite !dassert_at_true by (first [apply Z.ltb_lt|apply Z.leb_le]; lia). cbn [obind Z.eqb].
      destruct (Z.ltb_spec (dataset - 1 + 1) dataset); [lia|]. cbn [nneg nlog nof NR2 NumR]. rewrite ln_1. f_equal. lra. }
    rewrite E0.
    assert (ES : rsum (map clogc (upd cs g (c + 1)%Z)) = rsum (map clogc cs) - clogc c + clogc (c + 1)).
    { rewrite map_upd. apply rsum_upd. rewrite nth_error_map, Hg. reflexivity. }
    assert (E1 : rsum (map clogc (cs ++ [1%Z])) = rsum (map clogc cs)) by (rewrite map_app, A; cbn; lra).
    destruct (Z.le_gt_cases c 10000) as [Hc2|Hc2].
    - rewrite le_add_exact by lia. do 4 eexists. do 4 (split; [reflexivity|]).
      assert (0 < 1 / IZR (c + 1)) by (apply Rdiv_lt_0_compat; [lra|apply (IZR_lt 0); lia]). rewrite ES, E1. split; [|split]; try lra.
    - destruct (le_add_large dl dataset c (dataset - 1)) as (s & Es & Hb); [lia|lia|]. rewrite Es.
      do 4 eexists. do 4 (split; [reflexivity|]). rewrite ES, E1. split; [intro; lia|]. lra.
  Qed.
End LER.
