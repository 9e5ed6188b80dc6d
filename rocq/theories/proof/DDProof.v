From Coq Require Import Permutation.
From Verif.model Require Import Base Num VectorMath Component DD.
From Verif.spec Require Import GroupSpec.
From Verif.proof Require Import BaseProof GroupProof BBProof VectorProof LoopProof.

Definition tally (dim : nat) (l : list Z) : list Z :=
  map (fun i => Z.of_nat (count_occ BinInt.Z.eq_dec l (Z.of_nat i))) (seq 0 dim).
Definition dd_stat (dim : nat) (l : list Z) : dd_group := mk_dd (tally dim l) (Z.of_nat (length l)).

Lemma tally_length dim l : length (tally dim l) = dim.
Proof. unfold tally. now rewrite map_length, seq_length. Qed.
Lemma tally_nth dim l i : i < dim ->
  nth_error (tally dim l) i = Some (Z.of_nat (count_occ BinInt.Z.eq_dec l (Z.of_nat i))).
Proof.
  intro H. unfold tally. rewrite nth_error_map.
  rewrite (nth_error_nth' (seq 0 dim) 0) by (rewrite seq_length; exact H).
  rewrite seq_nth by exact H. reflexivity.
Qed.
Lemma tally_ext dim l (r : list Z) : length r = dim ->
  (forall i, i < dim -> nth_error r i = Some (Z.of_nat (count_occ BinInt.Z.eq_dec l (Z.of_nat i)))) ->
  r = tally dim l.
Proof.
  intros L H. apply nth_error_ext. intro i. destruct (Nat.lt_ge_cases i dim) as [Hi|Hi].
  - now rewrite H, tally_nth.
  - rewrite (proj2 (nth_error_None r i)) by lia. symmetry. apply nth_error_None. now rewrite tally_length.
Qed.
Lemma tally_perm dim l l' : Permutation l l' -> tally dim l = tally dim l'.
Proof. intro P. apply map_ext. intro i. now rewrite (count_occ_perm _ _ _ _ P). Qed.
Lemma dd_stat_perm dim l l' : Permutation l l' -> dd_stat dim l = dd_stat dim l'.
Proof. intro P. unfold dd_stat. now rewrite (tally_perm dim _ _ P), (Permutation_length P). Qed.
Lemma in_dim_perm dim l l' : Permutation l l' -> in_dim dim l -> in_dim dim l'.
Proof. intros P [A B]. split; [eapply short_perm; eauto|]. eapply Permutation_Forall; eauto. Qed.
Lemma in_dim_tail dim v l : in_dim dim (v :: l) -> in_dim dim l.
Proof. intros [A B]. split; [eapply short_tail; eauto|]. now inversion B. Qed.

Lemma zget_nth {A} (l : list A) (i : nat) x : nth_error l i = Some x -> zget l (Z.of_nat i) = Ok x.
Proof.
  intro H. unfold zget. replace (Z.of_nat i <? 0)%Z with false by (symmetry; apply Z.ltb_ge; lia).
  rewrite Nat2Z.id. now apply vget_nth.
Qed.
Lemma zset_ok {A} (l : list A) (i : nat) x : i < length l -> zset l (Z.of_nat i) x = Ok (upd l i x).
Proof.
  intro H. unfold zset. replace (Z.of_nat i <? 0)%Z with false by (symmetry; apply Z.ltb_ge; lia).
  rewrite Nat2Z.id. now apply vset_ok.
Qed.

(** One bump by [n] turns the tally of l into the tally of l'. *)
Lemma dd_bump_stat dl dim l l' (v : nat) n : v < dim ->
  (forall i, Z.of_nat (count_occ BinInt.Z.eq_dec l' (Z.of_nat i)) =
     (Z.of_nat (count_occ BinInt.Z.eq_dec l (Z.of_nat i)) + if Nat.eqb i v then n else 0))%Z ->
  (Z.of_nat (length l') = Z.of_nat (length l) + n)%Z -> short l' -> short l ->
  dd_bump dl (dd_stat dim l) (Z.of_nat v) n = Ok (dd_stat dim l').
Proof.
  unfold short. intros Hv Hc Hl S1 S2. unfold dd_bump, dd_stat. cbn [dd_counts dd_count_sum].
  rewrite tally_length. rewrite dassert_at_true by (apply Z.ltb_lt; lia). cbn [obind].
   rewrite i32_ok by (unfold i32_min, i32_max; lia). cbn [obind].
  rewrite (zget_nth _ _ _ (tally_nth dim l v Hv)). cbn [obind].
  pose proof (count_occ_bound BinInt.Z.eq_dec (Z.of_nat v) l) as B1.
  pose proof (count_occ_bound BinInt.Z.eq_dec (Z.of_nat v) l') as B2.
  pose proof (Hc v) as Hcv. rewrite Nat.eqb_refl in Hcv.
  rewrite i32_ok by (unfold i32_min, i32_max; lia). cbn [obind].
  rewrite zset_ok by now rewrite tally_length. cbn [obind]. f_equal. f_equal; [|lia].
  apply tally_ext; [now rewrite length_upd, tally_length|].
  intros i Hi. destruct (Nat.eq_dec i v) as [->|Ne].
  - rewrite nth_error_upd_eq by now rewrite tally_length. f_equal. lia.
  - rewrite nth_error_upd_ne by auto. rewrite tally_nth by exact Hi. f_equal. rewrite Hc.
    rewrite (proj2 (Nat.eqb_neq i v) Ne). lia.
Qed.

Lemma in_dim_nat dim v l : in_dim dim (v :: l) -> exists k, v = Z.of_nat k /\ k < dim.
Proof. intros [_ F]. inversion F; subst. exists (Z.to_nat v). lia. Qed.

Section DD.
  Context {F : Type}.
  Variables (dl : nat) (sh : dd_shared F).
  Notation dim := (dd_dim sh).

  Lemma dd_init_stat : c_init (DD F) sh = dd_stat dim [].
  Proof.
    cbn. unfold dd_init, dd_stat. f_equal. apply tally_ext; [apply repeat_length|].
    intros i Hi. cbn [count_occ]. change (Z.of_nat 0) with 0%Z. rewrite nth_error_repeat; auto.
  Qed.
  Lemma dd_add_stat (l : list Z) (v : Z) : in_dim dim (v :: l) ->
    c_add (DD F) dl sh (dd_stat dim l) v = Ok (dd_stat dim (v :: l)).
  Proof.
    intro H. destruct (in_dim_nat _ _ _ H) as (k & -> & Hk).
    cbn [c_add DD]. unfold dd_add. apply dd_bump_stat; auto.
    - intro i. cbn [count_occ]. destruct (BinInt.Z.eq_dec (Z.of_nat k) (Z.of_nat i)) as [E|E];
        destruct (Nat.eqb_spec i k); lia.
    - cbn [length]; lia.
    - apply H. - eapply in_dim_tail, H.
  Qed.
  Lemma dd_rem_stat (l : list Z) (v : Z) : in_dim dim (v :: l) ->
    c_rem (DD F) dl sh (dd_stat dim (v :: l)) v = Ok (dd_stat dim l).
  Proof.
    intro H. destruct (in_dim_nat _ _ _ H) as (k & -> & Hk).
    cbn [c_rem DD]. unfold dd_rem. apply dd_bump_stat; auto.
    - intro i. cbn [count_occ]. destruct (BinInt.Z.eq_dec (Z.of_nat k) (Z.of_nat i)) as [E|E];
        destruct (Nat.eqb_spec i k); lia.
    - cbn [length]; lia.
    - eapply in_dim_tail, H. - apply H.
  Qed.
  Lemma fits_app_r (P : list Z -> Prop) a b : (forall v l, P (v :: l) -> P l) -> P (a ++ b) -> P b.
  Proof. intro T. induction a; simpl; auto. intro; apply IHa; eapply T; eauto. Qed.

  Lemma dd_rep_stat (l : list Z) (v : Z) n : (0 <= v < Z.of_nat dim)%Z -> in_dim dim (repeat v n ++ l) ->
    c_rep (DD F) dl sh (dd_stat dim l) v (Z.of_nat n) = Ok (dd_stat dim (repeat v n ++ l)).
  Proof.
    intros Hv H. assert (exists k, v = Z.of_nat k /\ k < dim) as (k & -> & Hk) by (exists (Z.to_nat v); lia).
    cbn [c_rep DD]. unfold dd_rep. apply dd_bump_stat; auto.
    - intro i. rewrite count_occ_app. destruct (Nat.eqb_spec i k) as [->|Ne].
      + rewrite count_occ_repeat_same. lia.
      + rewrite count_occ_repeat_ne by lia. lia.
    - rewrite app_length, repeat_length. lia.
    - apply H. - apply (fits_app_r short _ _ short_tail) with (1 := proj1 H).
  Qed.

  Lemma dd_history ops l : ghistory (dd_op dim) (in_dim dim) [] ops l ->
    grun (DD F) dl sh (c_init (DD F) sh) ops = Ok (dd_stat dim l).
  Proof.
    apply (grun_init (DD F) dl sh (dd_stat dim) (dd_op dim) (in_dim dim)).
    - exact dd_init_stat. - exact (dd_stat_perm dim).
    - split; [unfold short; cbn; lia|constructor].
    - exact (in_dim_perm dim). - exact (in_dim_tail dim). - exact dd_add_stat. - exact dd_rem_stat.
    - intros l0 v n [_ Hv]. now apply dd_rep_stat. - intros l0 ys [[] _].
  Qed.
  Lemma dd_filled l : in_dim dim l -> c_filled (DD F) dl sh l = Ok (dd_stat dim l).
  Proof.
    apply (filled_stat (DD F) dl sh (dd_stat dim) (in_dim dim)).
    - exact dd_init_stat. - exact (dd_stat_perm dim). - exact (in_dim_perm dim). - exact (in_dim_tail dim).
    - exact dd_add_stat.
  Qed.

  (** merge: pooled counts, but the old count_sum. *)
  Lemma dd_merge_stat (l ys : list Z) : in_dim dim (ys ++ l) ->
    c_merge (DD F) dl sh (dd_stat dim l) (dd_stat dim ys) = Ok (mk_dd (tally dim (ys ++ l)) (Z.of_nat (length l))).
  Proof.
    intros [H _]. unfold short in H. rewrite app_length in H. cbn [c_merge DD]. unfold dd_merge, dd_stat.
    cbn [dd_counts dd_count_sum]. rewrite tally_length.
    destruct (vfor_upd (fun i cs => let* c := vget cs i in let* d := vget (tally dim ys) i in
       let* e := i32 (c + d) in vset cs i e)
       (fun i _ => Z.of_nat (count_occ BinInt.Z.eq_dec (ys ++ l) (Z.of_nat i))) dim 0 (tally dim l)) as (r & E & L & I & O).
    - now rewrite tally_length.
    - intros i l' x Hi Hl Hx Hx'. rewrite tally_nth in Hx by lia. injection Hx as <-.
      rewrite (vget_nth _ _ _ Hx'). cbn [obind].
      rewrite (vget_nth _ _ _ (tally_nth dim ys i ltac:(lia))). cbn [obind].
      pose proof (count_occ_bound BinInt.Z.eq_dec (Z.of_nat i) l) as B1.
      pose proof (count_occ_bound BinInt.Z.eq_dec (Z.of_nat i) ys) as B2.
       rewrite i32_ok by (unfold i32_min, i32_max; lia). cbn [obind].
      rewrite vset_ok by (rewrite Hl, tally_length; lia). do 2 f_equal. rewrite count_occ_app. lia.
    - rewrite E. cbn [obind]. f_equal. f_equal. apply tally_ext.
      + now rewrite L, tally_length.
      + intros i Hi. eapply I; [lia|]. now apply tally_nth.
  Qed.
End DD.

(** The tally sums to the number of values. *)
Lemma zsum_tally dim l : in_dim dim l -> zsum (tally dim l) = Z.of_nat (length l).
Proof.
  intros [_ H]. unfold tally. induction H as [|v l Hv _ IH].
  - cbn [count_occ length]. induction (seq 0 dim) as [|x s IH]; cbn [map zsum]; [reflexivity|]. rewrite IH. reflexivity.
  - cbn [length]. rewrite Nat2Z.inj_succ, <- IH. clear IH.
    assert (E : forall s, NoDup s -> zsum (map (fun i => Z.of_nat (count_occ BinInt.Z.eq_dec (v :: l) (Z.of_nat i))) s) =
      (zsum (map (fun i => Z.of_nat (count_occ BinInt.Z.eq_dec l (Z.of_nat i))) s) +
       if in_dec Nat.eq_dec (Z.to_nat v) s then 1 else 0)%Z).
    { induction 1 as [|x s Hx _ IH]; cbn [map zsum]; [reflexivity|]. rewrite IH. cbn [count_occ].
      destruct (BinInt.Z.eq_dec v (Z.of_nat x)) as [E|E].
      - subst v. rewrite Nat2Z.id. destruct (in_dec Nat.eq_dec x (x :: s)) as [_|N]; [|exfalso; apply N; now left].
        destruct (in_dec Nat.eq_dec x s); [contradiction|]. lia.
      - destruct (in_dec Nat.eq_dec (Z.to_nat v) (x :: s)) as [[E'|I]|N]; destruct (in_dec Nat.eq_dec (Z.to_nat v) s) as [I'|N']; try lia; try contradiction.
        exfalso. apply N. now right. }
    rewrite E by apply seq_NoDup.
    destruct (in_dec Nat.eq_dec (Z.to_nat v) (seq 0 dim)) as [_|N]; [lia|].
    exfalso. apply N. apply in_seq. lia.
Qed.
