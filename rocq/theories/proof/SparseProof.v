From Verif.model Require Import Base Sparse SparseRun.
From Verif.spec Require Import SparseSpec.
From Verif.proof Require Import BaseProof.
From stdpp Require Import gmap.
From Coq Require Import Permutation.
Local Open Scope Z_scope.

Lemma i32_in z : in_i32 z -> i32 z = Ok z.
Proof. intros [H1 H2]. apply i32_ok. unfold i32_min, i32_max. lia. Qed.

Lemma sum_for_app k a b : sum_for k (a ++ b) = sum_for k a + sum_for k b.
Proof. induction a as [|o a IH]; simpl; lia. Qed.
Lemma sum_all_app a b : sum_all (a ++ b) = sum_all a + sum_all b.
Proof. induction a as [|o a IH]; simpl; lia. Qed.
Lemma abs_all_app a b : abs_all (a ++ b) = abs_all a + abs_all b.
Proof. induction a as [|o a IH]; simpl; lia. Qed.

Lemma crun_app dl c a b : crun dl c (a ++ b) =
  obind (crun dl c a) (fun r => obind (crun dl r.1 b) (fun r' => Ok (r'.1, r.2 ++ r'.2))).
Proof.
  revert c; induction a as [|o a IH]; intro c; simpl.
  - destruct (crun dl c b) as [[? ?]| |]; reflexivity.
  - destruct (crun1 dl c o) as [[c1 r1]| |]; simpl; [|reflexivity|reflexivity].
    rewrite IH. destruct (crun dl c1 a) as [[c2 r2]| |]; simpl; [|reflexivity|reflexivity].
    destruct (crun dl c2 b) as [[c3 r3]| |]; reflexivity.
Qed.

Lemma legal_snoc ops o : legal_history (ops ++ [o]) ->
  legal_history ops /\
  in_i32 (sum_for (op_key o) (ops ++ [o])) /\ in_i32 (sum_all (ops ++ [o])) /\
  match o with CInit k n => sum_for k ops = 0 /\ in_i32 n | CAdd _ n => in_i32 n | CRemove _ => True end.
Proof.
  intro H. split.
  - intros pre o' post ->. apply (H pre o' (post ++ [o])). now rewrite <- app_assoc.
  - exact (H ops o [] eq_refl).
Qed.

(** Sum of the entries of a list / of their absolute values. *)
Definition zsum (l : list Z) : Z := fold_right Z.add 0 l.
Definition entries (m : gmap Z Z) : list Z := (map_to_list m).*2.

Lemma zsum_perm l1 l2 : Permutation l1 l2 -> zsum l1 = zsum l2.
Proof. induction 1; simpl; lia. Qed.

Lemma zsum_insert m k v : m !! k = None ->
  zsum (entries (<[ k := v ]> m)) = v + zsum (entries m).
Proof.
  intro H. unfold entries.
  assert (P : Permutation (map_to_list (<[k:=v]> m)).*2 ((k, v) :: map_to_list m).*2).
  { apply Permutation_map. rewrite map_to_list_insert by auto. reflexivity. }
  rewrite (zsum_perm _ _ P). reflexivity.
Qed.

Lemma zsum_delete m k v : m !! k = Some v ->
  zsum (entries m) = v + zsum (entries (delete k m)).
Proof.
  intro H. rewrite <- (zsum_insert (delete k m) k v) by apply lookup_delete.
  rewrite insert_delete by auto. reflexivity.
Qed.

Lemma abs_insert m k v : m !! k = None ->
  zsum (map Z.abs (entries (<[ k := v ]> m))) = Z.abs v + zsum (map Z.abs (entries m)).
Proof.
  intro H. unfold entries.
  assert (P : Permutation (map_to_list (<[k:=v]> m)).*2 ((k, v) :: map_to_list m).*2).
  { apply Permutation_map. rewrite map_to_list_insert by auto. reflexivity. }
  rewrite (zsum_perm _ _ (Permutation_map Z.abs P)). reflexivity.
Qed.

Lemma abs_delete m k v : m !! k = Some v ->
  zsum (map Z.abs (entries m)) = Z.abs v + zsum (map Z.abs (entries (delete k m))).
Proof.
  intro H. rewrite <- (abs_insert (delete k m) k v) by apply lookup_delete.
  rewrite insert_delete by auto. reflexivity.
Qed.

(** Invariant: [c] holds the function [f], total [t]. *)
Record cinv (c : counter) (f : Z -> Z) (t : Z) : Prop := {
  ci_map : forall k v, cmap c !! k = Some v <-> f k = v /\ v <> 0;
  ci_total : ctotal c = Some t;
  ci_sum : zsum (entries (cmap c)) = t }.

Lemma cinv_none c f t k : cinv c f t -> cmap c !! k = None <-> f k = 0.
Proof.
  intros [H _ _]. split.
  - intro E. destruct (Z.eq_dec (f k) 0); [auto|]. 
    assert (cmap c !! k = Some (f k)) by (apply H; auto). congruence.
  - intro E. destruct (cmap c !! k) as [v|] eqn:E'; [|reflexivity].
    apply H in E'. destruct E'; congruence.
Qed.

Lemma cinv_get c f t k : cinv c f t -> ctr_get_count c k = f k.
Proof.
  intro H. unfold ctr_get_count. destruct (cmap c !! k) as [v|] eqn:E.
  - apply (ci_map _ _ _ H) in E. destruct E; auto.
  - apply (cinv_none _ _ _ _ H) in E. auto.
Qed.

Lemma cinv_ext c f g t : (forall k, f k = g k) -> cinv c f t -> cinv c g t.
Proof. intros E [H1 H2 H3]. split; auto. intros k v. rewrite <- E. apply H1. Qed.

Lemma cinv_add c f t k n : cinv c f t -> in_i32 (t + n) -> in_i32 (f k + n) ->
  exists c', ctr_add c k n = Ok (c', f k + n) /\
    cinv c' (fun k' => if k' =? k then f k + n else f k') (t + n).
Proof.
  intros H Ht Hk. unfold ctr_add. destruct (Z.eqb_spec n 0) as [->|Hn].
  { exists c. rewrite (cinv_get _ _ _ k H), !Z.add_0_r. split; [reflexivity|].
    apply (cinv_ext _ f); [|exact H]. intro k'. destruct (Z.eqb_spec k' k); [subst|]; reflexivity. }
  rewrite (ci_total _ _ _ H). unfold ctr_bump. rewrite (i32_in (t + n)) by auto. cbn [obind].
  destruct (cmap c !! k) as [old|] eqn:E.
  - pose proof E as E'. apply (ci_map _ _ _ H) in E'. destruct E' as [<- Hold].
    rewrite i32_in by auto. cbn [obind].
    assert (Hs : zsum (entries (delete k (cmap c))) = t - f k).
    { pose proof (zsum_delete _ _ _ E). rewrite (ci_sum _ _ _ H) in H0. lia. }
    destruct (Z.eqb_spec (f k + n) 0) as [Hz|Hz].
    + rewrite Hz. eexists. split; [reflexivity|]. split; cbn [cmap ctotal].
      * intros k' v. destruct (Z.eqb_spec k' k) as [->|Hne].
        -- rewrite lookup_delete. split; [discriminate|intros [? ?]; congruence].
        -- rewrite lookup_delete_ne by auto. apply (ci_map _ _ _ H).
      * f_equal; lia.
      * lia.
    + eexists. split; [reflexivity|]. split; cbn [cmap ctotal].
      * intros k' v. destruct (Z.eqb_spec k' k) as [->|Hne].
        -- rewrite lookup_insert. split; [intro X; injection X as <-; auto|intros [<- _]; reflexivity].
        -- rewrite lookup_insert_ne by auto. apply (ci_map _ _ _ H).
      * reflexivity.
      * rewrite <- insert_delete_insert, zsum_insert by apply lookup_delete. lia.
  - pose proof E as E'. apply (cinv_none _ _ _ _ H) in E'. rewrite E'. simpl.
    eexists. split; [reflexivity|]. split; cbn [cmap ctotal].
    + intros k' v. destruct (Z.eqb_spec k' k) as [->|Hne].
      * rewrite lookup_insert. split; [intro X; injection X as <-; auto|intros [<- _]; reflexivity].
      * rewrite lookup_insert_ne by auto. apply (ci_map _ _ _ H).
    + reflexivity.
    + rewrite zsum_insert by auto. rewrite (ci_sum _ _ _ H). lia.
Qed.

Lemma cinv_init dl c f t k n : cinv c f t -> f k = 0 -> in_i32 (t + n) ->
  exists c', ctr_init_count dl c k n = Ok c' /\
    cinv c' (fun k' => if k' =? k then n else f k') (t + n).
Proof.
  intros H Hf Ht. unfold ctr_init_count. destruct (Z.eqb_spec n 0) as [->|Hn].
  { exists c. split; [reflexivity|]. rewrite Z.add_0_r. apply (cinv_ext _ f); [|exact H].
    intro k'. destruct (Z.eqb_spec k' k); [subst|]; auto. }
  pose proof (proj2 (cinv_none _ _ _ k H) Hf) as E.
  unfold um_insert. rewrite E. rewrite dassert_at_true by reflexivity. cbn [obind].
  rewrite (ci_total _ _ _ H). unfold ctr_bump. rewrite (i32_in (t + n)) by auto. cbn [obind].
  eexists. split; [reflexivity|]. split; cbn [cmap ctotal].
  + intros k' v. destruct (Z.eqb_spec k' k) as [->|Hne].
    * rewrite lookup_insert. split; [intro X; injection X as <-; auto|intros [<- _]; reflexivity].
    * rewrite lookup_insert_ne by auto. apply (ci_map _ _ _ H).
  + reflexivity.
  + rewrite zsum_insert by auto. rewrite (ci_sum _ _ _ H). lia.
Qed.

Definition ret_of (pre : list cop) (o : cop) : option Z :=
  match o with CInit _ _ => None | _ => Some (sum_for (op_key o) (pre ++ [o])) end.

Lemma crun_ok dl c0 ops : legal_history ops ->
  exists c rets, crun dl (ctr_clear c0) ops = Ok (c, rets) /\
    cinv c (fun k => sum_for k ops) (sum_all ops) /\ length rets = length ops /\
    (forall pre o post, ops = pre ++ o :: post -> nth_error rets (length pre) = Some (ret_of pre o)).
Proof.
  induction ops as [|o ops IH] using rev_ind; intro Hl.
  - exists (ctr_clear c0), []. split; [reflexivity|]. split; [|split; [reflexivity|intros [|? ?] ? ? E; discriminate E]].
    split; simpl; auto. intros k v. rewrite lookup_empty. split; [discriminate|intros [<- ?]; congruence].
  - apply legal_snoc in Hl. destruct Hl as (Hl & H1 & H2 & H3).
    destruct (IH Hl) as (c & rets & E & Hc & Hlen & Hr). rewrite sum_all_app in *. rewrite sum_for_app in H1. simpl in H1, H2.
    assert (Hrets : forall x, x = ret_of ops o -> forall pre o' post, ops ++ [o] = pre ++ o' :: post ->
        nth_error (rets ++ [x]) (length pre) = Some (ret_of pre o')).
    { intros x -> pre o' post Eq. destruct post as [|p post _] using rev_ind.
      - apply app_inj_tail in Eq. destruct Eq as [-> ->].
        rewrite <- Hlen, nth_error_app2, Nat.sub_diag by lia. reflexivity.
      - rewrite app_comm_cons, app_assoc in Eq. apply app_inj_tail in Eq. destruct Eq as [Eq _].
        rewrite nth_error_app1; [apply (Hr _ _ _ Eq)|].
        rewrite Hlen, Eq, app_length. simpl. lia. }
    assert (Hlen' : forall x, length (rets ++ [x]) = length (ops ++ [o]))
      by (intro; rewrite !app_length; simpl; lia).
    rewrite crun_app, E. cbn [obind fst snd crun].
    destruct o as [k n|k|k n]; cbn [crun1 op_key amount total_amount] in *; rewrite ?Z.eqb_refl, ?Z.add_0_r in *.
    + destruct (cinv_add _ _ _ k n Hc H2 H1) as (c' & E' & Hc'). rewrite E'. cbn [obind fst snd].
      eexists _, _. split; [reflexivity|]. split; [|split; [apply Hlen'|apply Hrets]].
      * cbn [sum_all total_amount]; rewrite Z.add_0_r. eapply cinv_ext; [|exact Hc']. intro k'. rewrite sum_for_app. simpl.
        destruct (Z.eqb_spec k' k); [subst|]; lia.
      * simpl. rewrite sum_for_app. simpl. rewrite Z.eqb_refl. f_equal; lia.
    + destruct (cinv_add _ _ _ k (-1) Hc H2 H1) as (c' & E' & Hc'). unfold ctr_remove. rewrite E'. cbn [obind fst snd].
      eexists _, _. split; [reflexivity|]. split; [|split; [apply Hlen'|apply Hrets]].
      * cbn [sum_all total_amount]; rewrite Z.add_0_r. eapply cinv_ext; [|exact Hc']. intro k'. rewrite sum_for_app. simpl.
        destruct (Z.eqb_spec k' k); [subst|]; lia.
      * simpl. rewrite sum_for_app. simpl. rewrite Z.eqb_refl. f_equal; lia.
    + destruct H3 as [H3 H4]. destruct (cinv_init dl _ _ _ k n Hc H3 H2) as (c' & E' & Hc'). rewrite E'. cbn [obind fst snd].
      eexists _, _. split; [reflexivity|]. split; [|split; [apply Hlen'|apply Hrets; reflexivity]].
      cbn [sum_all total_amount]; rewrite Z.add_0_r. eapply cinv_ext; [|exact Hc']. intro k'. rewrite sum_for_app. simpl.
      destruct (Z.eqb_spec k' k); [subst|]; lia.
Qed.

Lemma counter_exact dl c0 ops : legal_history ops ->
  exists c rets, crun dl (ctr_clear c0) ops = Ok (c, rets) /\
    (forall k, ctr_get_count c k = sum_for k ops) /\
    ctr_get_total c = Ok (sum_all ops) /\
    (forall k v, In (k, v) (map_to_list (cmap c)) <-> sum_for k ops = v /\ v <> 0) /\
    (forall pre o post, ops = pre ++ o :: post -> nth_error rets (length pre) =
       Some (match o with CInit _ _ => None | _ => Some (sum_for (op_key o) (pre ++ [o])) end)).
Proof.
  intro Hl. destruct (crun_ok dl c0 ops Hl) as (c & rets & E & Hc & Hlen & Hr).
  exists c, rets. split; [exact E|]. split; [intro k; apply (cinv_get _ _ _ k Hc)|].
  split; [unfold ctr_get_total; now rewrite (ci_total _ _ _ Hc)|]. split; [|exact Hr].
  intros k v. rewrite <- elem_of_list_In, elem_of_map_to_list. apply (ci_map _ _ _ Hc).
Qed.

Lemma counter_total_is_sum dl c0 ops c rets : legal_history ops ->
  crun dl (ctr_clear c0) ops = Ok (c, rets) ->
  ctr_get_total c = Ok (fold_right Z.add 0 (map snd (map_to_list (cmap c)))).
Proof.
  intros Hl E. destruct (crun_ok dl c0 ops Hl) as (c' & rets' & E' & Hc & _).
  rewrite E' in E. injection E as -> ->. unfold ctr_get_total. rewrite (ci_total _ _ _ Hc).
  f_equal. symmetry. apply (ci_sum _ _ _ Hc).
Qed.

(** Absolute sums. *)
Lemma sum_for_abs k ops : Z.abs (sum_for k ops) <= abs_all ops.
Proof.
  induction ops as [|o ops IH]; simpl; [lia|].
  assert (Z.abs (amount o k) <= Z.abs (total_amount o)) by (destruct o; simpl; destruct (Z.eqb _ _); lia). lia.
Qed.
Lemma sum_all_abs ops : Z.abs (sum_all ops) <= abs_all ops.
Proof. induction ops as [|o ops IH]; simpl; lia. Qed.

(** Entries of the map as a finite-support sum. *)
Fixpoint assoc (k : Z) (l : list (Z * Z)) : Z :=
  match l with [] => 0 | (k', v) :: t => (if k =? k' then v else 0) + assoc k t end.

Lemma assoc_absent k l : ~ In k (map fst l) -> assoc k l = 0.
Proof.
  induction l as [|[k' v] l IH]; simpl; intro H; [reflexivity|].
  destruct (Z.eqb_spec k k'); [subst; tauto|]. rewrite IH by tauto. reflexivity.
Qed.
Lemma assoc_nodup k v l : NoDup (map fst l) -> In (k, v) l -> assoc k l = v.
Proof.
  induction l as [|[k' v'] l IH]; simpl; intros Hn Hi; [tauto|].
  apply NoDup_cons in Hn. destruct Hn as [Hk Hn]. rewrite elem_of_list_In in Hk. destruct Hi as [Hi|Hi].
  - injection Hi as -> ->. rewrite Z.eqb_refl, assoc_absent by auto. lia.
  - destruct (Z.eqb_spec k k') as [->|_].
    + exfalso. apply Hk. change k' with (fst (k', v)). now apply in_map.
    + rewrite (IH Hn Hi). reflexivity.
Qed.

Definition labs (l : list (Z * Z)) : Z := zsum (map (fun p => Z.abs (snd p)) l).
Lemma labs_nonneg l : 0 <= labs l.
Proof. unfold labs; induction l; simpl; lia. Qed.
Lemma labs_sum l : Z.abs (zsum (map snd l)) <= labs l.
Proof. unfold labs; induction l; simpl; lia. Qed.

Lemma add_all_ok l : forall c f t B, cinv c f t -> (forall k, Z.abs (f k) <= B) -> Z.abs t <= B ->
  B + labs l < 2 ^ 31 ->
  exists c', ctr_add_all c l = Ok c' /\
    cinv c' (fun k => f k + assoc k l) (t + zsum (map snd l)).
Proof.
  induction l as [|[k v] l IH]; intros c f t B Hc Hf Ht HB; simpl.
  - exists c. split; [reflexivity|]. rewrite Z.add_0_r. apply (cinv_ext _ f); [intro; lia|auto].
  - pose proof (labs_nonneg l) as Hnn. unfold labs in *. simpl in HB. pose proof (Hf k).
    destruct (cinv_add c f t k v Hc) as (c1 & -> & Hc1); [unfold in_i32; lia|unfold in_i32; lia|].
    cbn [obind fst].
    destruct (IH c1 _ _ (B + Z.abs v) Hc1) as (c2 & E2 & Hc2).
    + intro k'. destruct (Z.eqb_spec k' k); [subst; lia|]. specialize (Hf k'). lia.
    + lia.
    + lia.
    + exists c2. split; [exact E2|].
      replace (t + (v + zsum (map snd l))) with (t + v + zsum (map snd l)) by lia.
      eapply cinv_ext; [|exact Hc2]. intro k'. simpl.
      destruct (Z.eqb_spec k' k); [subst|]; lia.
Qed.

(** Absolute value of the entries is bounded by the history. *)
Lemma entries_abs dl c0 ops c rets : legal_history ops -> crun dl (ctr_clear c0) ops = Ok (c, rets) ->
  labs (map_to_list (cmap c)) <= abs_all ops.
Proof.
  intros Hl E.
  assert (Hgen : zsum (map Z.abs (entries (cmap c))) <= abs_all ops).
  2:{ unfold labs, entries in *. rewrite map_map in Hgen. exact Hgen. }
  revert c rets E. induction ops as [|o ops IH] using rev_ind; intros c rets E.
  - injection E as <- <-. unfold entries. simpl. rewrite map_to_list_empty. simpl. lia.
  - apply legal_snoc in Hl. destruct Hl as (Hl & H1 & H2 & H3).
    destruct (crun_ok dl c0 ops Hl) as (c1 & rets1 & E1 & Hc1 & _).
    specialize (IH Hl _ _ E1). rewrite crun_app, E1 in E. cbn [obind fst snd crun] in E.
    rewrite abs_all_app. simpl. rewrite Z.add_0_r.
    assert (Hadd : forall k n c' z, ctr_add c1 k n = Ok (c', z) ->
       zsum (map Z.abs (entries (cmap c'))) <= zsum (map Z.abs (entries (cmap c1))) + Z.abs n).
    { intros k n c' z Ea. unfold ctr_add in Ea. destruct (Z.eqb_spec n 0); [injection Ea as <- _; lia|].
      destruct (ctr_bump _ _) as [t| |]; [|discriminate|discriminate]. cbn [obind] in Ea.
      destruct (cmap c1 !! k) as [old|] eqn:Ek.
      - unfold i32 in Ea. destruct (_ && _)%bool; [|discriminate]. cbn [obind] in Ea.
        pose proof (abs_delete _ _ _ Ek). destruct (Z.eqb_spec (old + n) 0).
        + injection Ea as <- _. cbn [cmap]. lia.
        + injection Ea as <- _. cbn [cmap]. rewrite <- insert_delete_insert, abs_insert by apply lookup_delete. lia.
      - injection Ea as <- _. cbn [cmap]. rewrite abs_insert by auto. lia. }
    destruct o as [k n|k|k n]; cbn [crun1 total_amount] in *.
    + destruct (ctr_add c1 k n) as [[c' z]| |] eqn:Ea; try discriminate. cbn in E. injection E as <- _.
      specialize (Hadd _ _ _ _ Ea). simpl. lia.
    + unfold ctr_remove in E. destruct (ctr_add c1 k (-1)) as [[c' z]| |] eqn:Ea; try discriminate. cbn in E. injection E as <- _.
      specialize (Hadd _ _ _ _ Ea). simpl. lia.
    + destruct H3 as [H3 H4]. rewrite sum_all_app in H2. simpl in H2. rewrite Z.add_0_r in H2.
      unfold ctr_init_count in E. destruct (Z.eqb_spec n 0); [cbn in E; injection E as <- _; lia|].
      unfold um_insert in E. pose proof (proj2 (cinv_none _ _ _ k Hc1) H3) as Ek. rewrite Ek in E.
      rewrite dassert_at_true in E by reflexivity. cbn [obind] in E.
      destruct (ctr_bump _ _) as [t| |]; try discriminate. cbn in E. injection E as <- _. cbn [cmap].
      rewrite abs_insert by auto. lia.
Qed.

Lemma merge_counts dl dl' a b ops1 ops2 c1 c2 r1 r2 order :
  legal_history ops1 -> legal_history ops2 ->
  crun dl (ctr_clear a) ops1 = Ok (c1, r1) -> crun dl' (ctr_clear b) ops2 = Ok (c2, r2) ->
  Permutation order (map_to_list (cmap c2)) ->
  abs_all ops1 + 2 * abs_all ops2 < 2 ^ 31 ->
  exists c, ctr_merge c1 c2 order = Ok c /\
    (forall k, ctr_get_count c k = sum_for k ops1 + sum_for k ops2) /\
    ctr_get_total c = Ok (sum_all ops1 + 2 * sum_all ops2).
Proof.
  intros L1 L2 E1 E2 HP HB.
  pose proof (entries_abs _ _ _ _ _ L2 E2) as HA.
  destruct (crun_ok dl a ops1 L1) as (c1' & r1' & E1' & Hc1 & _). rewrite E1' in E1. injection E1 as -> ->.
  destruct (crun_ok dl' b ops2 L2) as (c2' & r2' & E2' & Hc2 & _). rewrite E2' in E2. injection E2 as -> ->.
  assert (HL : labs order = labs (map_to_list (cmap c2))) by (apply zsum_perm, Permutation_map, HP).
  pose proof (labs_nonneg (map_to_list (cmap c2))).
  destruct (add_all_ok order c1 _ _ (abs_all ops1) Hc1) as (c' & E' & Hc').
  { intro k. apply sum_for_abs. } { apply sum_all_abs. } { lia. }
  assert (Hs : zsum (map snd order) = sum_all ops2).
  { rewrite <- (ci_sum _ _ _ Hc2). apply zsum_perm, Permutation_map, HP. }
  unfold ctr_merge. rewrite E'. cbn [obind]. rewrite (ci_total _ _ _ Hc2), (ci_total _ _ _ Hc').
  unfold ctr_bump. pose proof (sum_all_abs ops1). pose proof (sum_all_abs ops2).
  rewrite i32_in by (unfold in_i32; lia). cbn [obind].
  eexists. split; [reflexivity|]. split.
  - intro k. unfold ctr_get_count. cbn [cmap]. fold (ctr_get_count c' k).
    rewrite (cinv_get _ _ _ k Hc'). f_equal.
    assert (Hnd : NoDup (map fst order)).
    { assert (P : Permutation (map fst order) (map fst (map_to_list (cmap c2)))) by (apply Permutation_map, HP).
      rewrite P. apply (NoDup_fst_map_to_list (cmap c2)). }
    destruct (cmap c2 !! k) as [v|] eqn:Ek.
    + rewrite (assoc_nodup k v).
      * apply (ci_map _ _ _ Hc2) in Ek. destruct Ek; auto.
      * exact Hnd.
      * rewrite HP. apply elem_of_list_In, elem_of_map_to_list. exact Ek.
    + rewrite assoc_absent.
      * apply (cinv_none _ _ _ _ Hc2) in Ek. auto.
      * intro Hi. apply in_map_iff in Hi. destruct Hi as ((k' & v) & <- & Hi).
        rewrite HP in Hi. apply elem_of_list_In, elem_of_map_to_list in Hi. simpl in Ek. congruence.
  - unfold ctr_get_total. cbn [ctotal]. f_equal. lia.
Qed.

Lemma rename_ok dl dl' a ops c r old new :
  legal_history ops -> crun dl (ctr_clear a) ops = Ok (c, r) ->
  sum_for new ops = 0 \/ new = old \/ sum_for old ops = 0 ->
  exists c', ctr_rename dl' c old new = Ok c' /\ ctr_get_total c' = Ok (sum_all ops) /\
    (forall k, ctr_get_count c' k =
       if sum_for old ops =? 0 then sum_for k ops
       else if k =? new then sum_for old ops else if k =? old then 0 else sum_for k ops).
Proof.
  intros L E Hn. destruct (crun_ok dl a ops L) as (c1 & r1 & E1 & Hc & _). rewrite E1 in E. injection E as -> ->.
  unfold ctr_rename. destruct (cmap c !! old) as [v|] eqn:Eo.
  - pose proof Eo as Eo'. apply (ci_map _ _ _ Hc) in Eo'. destruct Eo' as [Ev Hv]. rewrite Ev.
    assert (En : delete old (cmap c) !! new = None).
    { destruct (decide (new = old)) as [->|Hne]; [apply lookup_delete|].
      rewrite lookup_delete_ne by auto. apply (cinv_none _ _ _ _ Hc). destruct Hn as [?|[?|?]]; [auto|congruence|congruence]. }
    unfold um_insert. rewrite En. rewrite dassert_at_true by reflexivity. cbn [obind].
    eexists. split; [reflexivity|]. split; [unfold ctr_get_total; cbn [ctotal]; now rewrite (ci_total _ _ _ Hc)|].
    destruct (Z.eqb_spec v 0); [congruence|].
    intro k. unfold ctr_get_count. cbn [cmap]. destruct (Z.eqb_spec k new) as [->|Hkn].
    + rewrite lookup_insert. reflexivity.
    + rewrite lookup_insert_ne by auto. destruct (Z.eqb_spec k old) as [->|Hko].
      * rewrite lookup_delete. reflexivity.
      * rewrite lookup_delete_ne by auto. apply (cinv_get _ _ _ k Hc).
  - exists c. apply (cinv_none _ _ _ _ Hc) in Eo. rewrite Eo. split; [reflexivity|].
    split; [unfold ctr_get_total; now rewrite (ci_total _ _ _ Hc)|].
    simpl. intro k. apply (cinv_get _ _ _ k Hc).
Qed.

(** Sparse_ *)
Section M.
  Context {V : Type} (dflt : V).
  Definition repr (m : gmap Z V) (f : Z -> option V) : Prop := forall k, m !! k = f k.

  Lemma mstep_ok dl m f o f' r : repr m f -> mstep dflt f o f' r ->
    exists m', mrun1 dflt dl m o = Ok (m', r) /\ repr m' f'.
  Proof.
    intros Hm Hs.
    assert (Hins : forall k v, repr (<[ k := v ]> m) (put f k (Some v))).
    { intros k v k'. unfold put. destruct (Z.eqb_spec k' k) as [->|H]; [apply lookup_insert|].
      rewrite lookup_insert_ne by auto. apply Hm. }
    assert (Hdel : forall k, repr (delete k m) (put f k None)).
    { intros k k'. unfold put. destruct (Z.eqb_spec k' k) as [->|H]; [apply lookup_delete|].
      rewrite lookup_delete_ne by auto. apply Hm. }
    destruct Hs; cbn [mrun1];
      unfold sp_contains, sp_add, sp_add_default, sp_remove, sp_pop, sp_set, sp_get, sp_find, sp_get_or_add, um_insert, sp_contains;
      try (rewrite (Hm k)); try (rewrite H); cbn [obind];
      rewrite ?dassert_at_true by reflexivity; cbn [obind]; rewrite ?lookup_insert; cbn [obind fst snd]; eauto.
    - eexists. split; [reflexivity|]. intro k'. apply lookup_empty.
  Qed.

  Lemma msteps_ok dl f ops f' rs : msteps dflt f ops f' rs -> forall m, repr m f ->
    exists m', mrun dflt dl m ops = Ok (m', rs) /\ repr m' f'.
  Proof.
    induction 1 as [f|f o f1 r ops f2 rs Hs H IH]; intros m Hm; simpl; [eauto|].
    destruct (mstep_ok dl _ _ _ _ _ Hm Hs) as (m1 & -> & H1). cbn [obind fst snd].
    destruct (IH _ H1) as (m2 & -> & H2). cbn [obind fst snd]. eauto.
  Qed.

  Lemma sparse_refines dl ops f rs : msteps dflt (fun _ => None) ops f rs ->
    exists m, mrun dflt dl ∅ ops = Ok (m, rs) /\
      (forall k v, In (k, v) (map_to_list m) <-> f k = Some v) /\
      sp_size m = length (map_to_list m) /\ NoDup (map fst (map_to_list m)).
  Proof.
    intro H. destruct (msteps_ok dl _ _ _ _ H ∅) as (m & E & Hm); [intro; apply lookup_empty|].
    exists m. split; [exact E|]. split; [|split; [reflexivity|apply NoDup_fst_map_to_list]].
    intros k v. rewrite <- elem_of_list_In, elem_of_map_to_list, Hm. tauto.
  Qed.

  (** The first illegal call. *)
  Lemma sparse_illegal dl m f o : (1 <= dl)%nat -> repr m f ->
    (match o with
     | MAdd k _ | MAddDefault k => f k <> None
     | MRemove k | MPop k | MSet k _ | MGet k => f k = None
     | _ => False
     end) -> mrun1 dflt dl m o = Fail.
  Proof.
    intros Hd Hm Ho. assert (Hf : dassert_at dl 1 false = Fail).
    { unfold dassert_at. destruct (Nat.leb_spec 1 dl); [reflexivity|lia]. }
    destruct o; try tauto; cbn [mrun1];
      unfold sp_contains, sp_add, sp_add_default, sp_remove, sp_pop, sp_set, sp_get, sp_find, um_insert, sp_contains;
      rewrite (Hm k); destruct (f k); try congruence; rewrite Hf; reflexivity.
  Qed.
End M.
