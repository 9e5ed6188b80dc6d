(** Dirichlet-process-discrete groups. *)
From Coq Require Import Permutation Reals Lra.
From Verif.spec Require Import GroupSpec SparseSpec.
From Verif.model Require Import Base Num NumR Component Sparse DPD.
From Verif.proof Require Import BaseProof GroupProof.
From stdpp Require Import gmap.
From Verif.proof Require Import SparseProof.
Local Open Scope Z_scope.

Definition zcount (l : list Z) (v : Z) : Z := Z.of_nat (count_occ BinInt.Z.eq_dec l v).
Fixpoint dmap (l : list Z) : gmap Z Z := match l with [] => ∅ | v :: l' => <[ v := zcount (v :: l') v ]> (dmap l') end.
Definition dpd_stat (l : list Z) : counter := mk_counter (dmap l) (Some (Z.of_nat (length l))).

Lemma zcount_nil v : zcount [] v = 0. Proof. reflexivity. Qed.
Lemma zcount_cons v l k : zcount (v :: l) k = (if k =? v then zcount l v + 1 else zcount l k).
Proof.
  unfold zcount. cbn [count_occ]. destruct (BinInt.Z.eq_dec v k) as [->|H].
  - rewrite Z.eqb_refl. lia. - destruct (Z.eqb_spec k v); congruence.
Qed.
Lemma zcount_nonneg l v : 0 <= zcount l v. Proof. unfold zcount. lia. Qed.
Lemma zcount_le l v : zcount l v <= Z.of_nat (length l).
Proof. unfold zcount. pose proof (count_occ_bound BinInt.Z.eq_dec v l). lia. Qed.
Lemma zcount_app a b v : zcount (a ++ b) v = zcount a v + zcount b v.
Proof. unfold zcount. rewrite count_occ_app. lia. Qed.
Lemma zcount_perm l l' v : Permutation l l' -> zcount l v = zcount l' v.
Proof. intro P. unfold zcount. now rewrite (count_occ_perm _ _ _ v P). Qed.
Lemma zcount_repeat v n k : zcount (repeat v n) k = if k =? v then Z.of_nat n else 0.
Proof.
  unfold zcount. destruct (Z.eqb_spec k v) as [->|H]; [now rewrite count_occ_repeat_same|].
  now rewrite count_occ_repeat_ne by auto.
Qed.
Lemma zcount_pos l v : In v l <-> 0 < zcount l v.
Proof. unfold zcount. rewrite (count_occ_In BinInt.Z.eq_dec). lia. Qed.

Lemma dmap_lookup l k : dmap l !! k = if zcount l k =? 0 then None else Some (zcount l k).
Proof.
  induction l as [|v l IH]; [apply lookup_empty|]. cbn [dmap].
  destruct (BinInt.Z.eq_dec v k) as [->|H].
  - rewrite lookup_insert. rewrite zcount_cons, Z.eqb_refl. pose proof (zcount_nonneg l k).
    destruct (Z.eqb_spec (zcount l k + 1) 0); [lia|reflexivity].
  - rewrite lookup_insert_ne by auto. rewrite IH, zcount_cons. destruct (Z.eqb_spec k v); [congruence|reflexivity].
Qed.
Lemma dmap_get l k : ctr_get_count (dpd_stat l) k = zcount l k.
Proof. unfold ctr_get_count, dpd_stat. cbn [cmap]. rewrite dmap_lookup. destruct (Z.eqb_spec (zcount l k) 0); auto. Qed.
Lemma dmap_ext l l' : (forall k, zcount l k = zcount l' k) -> dmap l = dmap l'.
Proof. intro H. apply map_eq. intro k. now rewrite !dmap_lookup, H. Qed.

Lemma cinv_unique c c' f t : cinv c f t -> cinv c' f t -> c = c'.
Proof.
  intros H H'. destruct c as [m o], c' as [m' o']. f_equal.
  - apply map_eq. intro k. apply option_eq. intro v.
    rewrite (ci_map _ _ _ H k v : m !! k = Some v <-> _). rewrite (ci_map _ _ _ H' k v : m' !! k = Some v <-> _). reflexivity.
  - pose proof (ci_total _ _ _ H). pose proof (ci_total _ _ _ H'). cbn in *. congruence.
Qed.
Lemma zsum_dmap l : SparseProof.zsum (entries (dmap l)) = Z.of_nat (length l).
Proof.
  induction l as [|v l IH]; [reflexivity|]. cbn [dmap]. rewrite zcount_cons, Z.eqb_refl.
  destruct (Z.eqb_spec (zcount l v) 0) as [E|E].
  - rewrite zsum_insert; [rewrite IH, E; cbn [length]; lia|]. rewrite dmap_lookup, E. reflexivity.
  - rewrite <- insert_delete_insert, zsum_insert by apply lookup_delete.
    pose proof (zsum_delete (dmap l) v (zcount l v)) as D.
    rewrite dmap_lookup in D. destruct (Z.eqb_spec (zcount l v) 0); [contradiction|].
    specialize (D eq_refl). cbn [length]. lia.
Qed.
Lemma dpd_cinv l : cinv (dpd_stat l) (zcount l) (Z.of_nat (length l)).
Proof.
  split; [|reflexivity|apply zsum_dmap]. intros k v. cbn [dpd_stat cmap]. rewrite dmap_lookup.
  destruct (Z.eqb_spec (zcount l k) 0); split; try (intros [? ?]); try (intro E; injection E as <-); try discriminate; try congruence; auto.
Qed.

Lemma dpd_ctr_add l v n : -1 <= n -> short l -> Z.of_nat (length l) + n <= 2147483647 -> 
  forall l', (forall k, zcount l' k = if k =? v then zcount l v + n else zcount l k) -> Z.of_nat (length l') = Z.of_nat (length l) + n ->
  ctr_add (dpd_stat l) v n = Ok (dpd_stat l', zcount l v + n).
Proof.
  intros Hn Hs Hl l' Hk Hlen. unfold short in Hs.
  pose proof (zcount_nonneg l v). pose proof (zcount_le l v).
  destruct (cinv_add _ _ _ v n (dpd_cinv l)) as (c & E & Hc); [split; lia|split; lia|].
  rewrite E. repeat f_equal. eapply cinv_unique; [exact Hc|]. rewrite <- Hlen.
  eapply cinv_ext; [|apply dpd_cinv]. exact Hk.
Qed.

Lemma drawn_nil P : drawn_from P []. Proof. split; [unfold short; cbn; lia|constructor]. Qed.
Lemma drawn_perm P l l' : Permutation l l' -> drawn_from P l -> drawn_from P l'.
Proof. intros Hp [A B]. split; [unfold short in *; now rewrite <- (Permutation_length Hp)|eapply Permutation_Forall; eauto]. Qed.
Lemma drawn_tail P v l : drawn_from P (v :: l) -> drawn_from P l.
Proof. intros [A B]. inversion B; subst. split; [unfold short in *; cbn [length] in A; lia|assumption]. Qed.

(** The values a shared knows. *)
Definition dpd_known {F} (sh : dpd_shared F) (v : Z) : Prop := v <> OTHER /\ dp_betas sh !! v <> None.

Section Group.
  Context {F : Type}.
  Variables (dl : nat) (sh : dpd_shared F).
  Notation D := (DPD F).

  Lemma dpd_check_ok v : dpd_known sh v -> dpd_check dl sh v = Ok tt.
  Proof.
    intros [A B]. unfold dpd_check. rewrite dassert_at_true; [|now rewrite (proj2 (Z.eqb_neq _ _) A)].
    cbn [obind]. apply dassert_at_true. unfold sp_contains. destruct (dp_betas sh !! v); congruence.
  Qed.
  Lemma dpd_stat_perm l l' : Permutation l l' -> dpd_stat l = dpd_stat l'.
  Proof.
    intro P. unfold dpd_stat. rewrite (Permutation_length P). f_equal. apply dmap_ext. intro k. now apply zcount_perm.
  Qed.
  Lemma dpd_add_stat l v : drawn_from (dpd_known sh) (v :: l) -> c_add D dl sh (dpd_stat l) v = Ok (dpd_stat (v :: l)).
  Proof.
    intros [A B]. inversion B; subst. cbn [c_add DPD]. unfold dpd_add. rewrite dpd_check_ok by assumption. cbn [obind].
    unfold short in A. cbn [length] in A.
    rewrite (dpd_ctr_add l v 1) with (l' := v :: l); [reflexivity|lia|unfold short; lia|lia|apply zcount_cons|cbn [length]; lia].
  Qed.
  Lemma dpd_rem_stat l v : drawn_from (dpd_known sh) (v :: l) -> c_rem D dl sh (dpd_stat (v :: l)) v = Ok (dpd_stat l).
  Proof.
    intros [A B]. inversion B; subst. cbn [c_rem DPD]. unfold dpd_rem. rewrite dpd_check_ok by assumption. cbn [obind].
    unfold short in A. cbn [length] in A. unfold ctr_remove.
    rewrite (dpd_ctr_add (v :: l) v (-1)) with (l' := l); [reflexivity|lia|unfold short; cbn [length]; lia|cbn [length]; lia| |cbn [length]; lia].
    intro k. rewrite !zcount_cons, Z.eqb_refl. destruct (Z.eqb_spec k v); subst; lia.
  Qed.
  Lemma dpd_rep_stat l v n : known_op (dpd_known sh) l (GRep v n) -> drawn_from (dpd_known sh) (repeat v n ++ l) ->
    c_rep D dl sh (dpd_stat l) v (Z.of_nat n) = Ok (dpd_stat (repeat v n ++ l)).
  Proof.
    intros [_ Hv] [A _]. cbn [c_rep DPD]. unfold dpd_rep. rewrite dpd_check_ok by assumption. cbn [obind].
    unfold short in A. rewrite app_length, repeat_length in A.
    rewrite (dpd_ctr_add l v (Z.of_nat n)) with (l' := repeat v n ++ l);
      [reflexivity|lia|unfold short; lia|lia| |rewrite app_length, repeat_length; lia].
    intro k. rewrite zcount_app, zcount_repeat. destruct (Z.eqb_spec k v); subst; lia.
  Qed.
  Lemma dpd_history ops l : ghistory (known_op (dpd_known sh)) (drawn_from (dpd_known sh)) [] ops l ->
    grun D dl sh (c_init D sh) ops = Ok (dpd_stat l).
  Proof.
    apply (grun_init D dl sh dpd_stat (known_op (dpd_known sh)) (drawn_from (dpd_known sh))).
    - reflexivity. - exact dpd_stat_perm. - apply drawn_nil. - apply drawn_perm. - apply drawn_tail.
    - apply dpd_add_stat. - apply dpd_rem_stat. - apply dpd_rep_stat. - intros l0 ys [[] _].
  Qed.
  Lemma dpd_filled l : drawn_from (dpd_known sh) l -> c_filled D dl sh l = Ok (dpd_stat l).
  Proof.
    apply (filled_stat D dl sh dpd_stat (drawn_from (dpd_known sh))).
    - reflexivity. - exact dpd_stat_perm. - apply drawn_perm. - apply drawn_tail. - apply dpd_add_stat.
  Qed.
End Group.
