(** Normal-inverse-Wishart groups: every vector and matrix is the table of a function. *)
From Coq Require Import Permutation Reals Lra Lia FunctionalExtensionality.
From Verif.model Require Import Base Num NumR Component NIW.
From Verif.spec Require Import GroupSpec GaussSpec NiwSpec.
From Verif.proof Require Import BaseProof GroupProof BBProof.
Local Open Scope R_scope.

Definition tab {A} (d : nat) (f : nat -> A) : list A := map f (seq 0 d).
Definition mtab {A} (d : nat) (f : nat -> nat -> A) : list (list A) := tab d (fun i => tab d (f i)).

Lemma tab_ext {A} d (f g : nat -> A) : (forall i, (i < d)%nat -> f i = g i) -> tab d f = tab d g.
Proof. intro H. apply map_ext_in. intros i Hi. apply in_seq in Hi. apply H. lia. Qed.
Lemma mtab_ext {A} d (f g : nat -> nat -> A) :
  (forall i j, (i < d)%nat -> (j < d)%nat -> f i j = g i j) -> mtab d f = mtab d g.
Proof. intro H. apply tab_ext. intros i Hi. apply tab_ext. auto. Qed.
Lemma tab_length {A} d (f : nat -> A) : length (tab d f) = d.
Proof. unfold tab. now rewrite map_length, seq_length. Qed.
Lemma tab_nth {A} d (f : nat -> A) i : (i < d)%nat -> nth_error (tab d f) i = Some (f i).
Proof.
  intro H. unfold tab. rewrite nth_error_map, nth_error_nth' with (d := 0%nat) by (rewrite seq_length; lia).
  cbn. now rewrite seq_nth by lia.
Qed.
Lemma tab_coord d f i : (i < d)%nat -> coord i (tab d f) = f i.
Proof. intro H. unfold coord. apply nth_error_nth. now apply tab_nth. Qed.
Lemma tab_self d x : length x = d -> x = tab d (fun i => coord i x).
Proof.
  intros <-. unfold tab, coord. induction x as [|a x IH]; [reflexivity|]. cbn [length seq map nth].
  f_equal. rewrite <- seq_shift, map_map. exact IH.
Qed.
Lemma tab_map {A B} d (f : nat -> A) (h : A -> B) : map h (tab d f) = tab d (fun i => h (f i)).
Proof. unfold tab. apply map_map. Qed.
Lemma tab_repeat {A} d (a : A) : repeat a d = tab d (fun _ => a).
Proof.
  unfold tab. generalize 0%nat. induction d as [|d IH]; intro k; cbn; [reflexivity|]. f_equal. apply IH.
Qed.
Lemma tab_is_vec d f : is_vec d f (tab d f).
Proof. split; [apply tab_length|]. intros i Hi. now apply tab_nth. Qed.
Lemma mtab_is_mat d f : is_mat d f (mtab d f).
Proof.
  split; [apply tab_length|]. intros i Hi. exists (tab d (f i)). split; [now apply tab_nth with (f := fun i => tab d (f i))|apply tab_is_vec].
Qed.
Lemma mtab_entry d f i j : (i < d)%nat -> (j < d)%nat -> entry (mtab d f) i j = f i j.
Proof.
  intros Hi Hj. unfold entry. erewrite nth_error_nth; [|apply (tab_nth d (fun i => tab d (f i)) i Hi)].
  now apply tab_coord.
Qed.
Lemma is_vec_tab d f x : is_vec d f x -> x = tab d f.
Proof.
  intros [H1 H2]. rewrite (tab_self d x H1). apply tab_ext. intros i Hi.
  unfold coord. now apply nth_error_nth, H2.
Qed.
Lemma is_mat_tab d f A : is_mat d f A -> A = mtab d f.
Proof.
  intros [H1 H2]. apply (nth_ext _ _ [] []); [now rewrite H1; unfold mtab; rewrite tab_length|].
  intros i Hi. rewrite H1 in Hi. destruct (H2 i Hi) as (row & E & V).
  erewrite nth_error_nth by exact E. symmetry. apply nth_error_nth.
  rewrite (is_vec_tab _ _ _ V). exact (tab_nth d (fun i => tab d (f i)) i Hi).
Qed.

Lemma zip_tab {A B D} d (f : nat -> A) (g : nat -> B) (h : A -> B -> outcome D) (k : nat -> D) :
  (forall i, (i < d)%nat -> h (f i) (g i) = Ok (k i)) -> zip_with h (tab d f) (tab d g) = Ok (tab d k).
Proof.
  unfold tab. intro H.
  assert (G : forall n s, (s + n <= d)%nat ->
    zip_with h (map f (seq s n)) (map g (seq s n)) = Ok (map k (seq s n))).
  { induction n as [|n IH]; intros s Hs; cbn; [reflexivity|].
    rewrite H by lia. cbn. rewrite IH by lia. reflexivity. }
  apply G. lia.
Qed.

Section R.
  Variable lg : R -> R.
  #[local] Hint Extern 0 (Num R) => exact (NumR lg) : typeclass_instances.

  Lemma v_bin_tab d f g (h : R -> R -> R) : v_bin h (tab d f) (tab d g) = Ok (tab d (fun i => h (f i) (g i))).
  Proof. unfold v_bin. apply zip_tab. reflexivity. Qed.
  Lemma m_bin_tab d f g (h : R -> R -> R) : m_bin h (mtab d f) (mtab d g) = Ok (mtab d (fun i j => h (f i j) (g i j))).
  Proof. unfold m_bin, mtab. apply zip_tab. intros i _. apply v_bin_tab. Qed.
  Lemma v_map_tab d f (h : R -> R) : v_map h (tab d f) = tab d (fun i => h (f i)).
  Proof. apply tab_map. Qed.
  Lemma m_map_tab d f (h : R -> R) : m_map h (mtab d f) = mtab d (fun i j => h (f i j)).
  Proof.
    unfold m_map, mtab. rewrite tab_map. apply tab_ext. intros i _. apply tab_map.
  Qed.
  Lemma outer_tab d f g : outer (N:=NumR lg) (tab d f) (tab d g) = mtab d (fun i j => f i * g j).
  Proof. unfold outer, mtab. rewrite tab_map. apply tab_ext. intros i _. apply tab_map. Qed.
  Lemma v_zero_tab d : v_zero (N:=NumR lg) d = tab d (fun _ => 0).
  Proof. apply tab_repeat. Qed.
  Lemma m_zero_tab d : m_zero (N:=NumR lg) d = mtab d (fun _ _ => 0).
  Proof. unfold m_zero, mtab. rewrite tab_repeat. apply tab_ext. intros _ _. apply v_zero_tab. Qed.

  (** ** Group statistics *)
  Definition sx (l : list (list R)) (i : nat) : R := rsum (map (coord i) l).
  Definition sxx (l : list (list R)) (i j : nat) : R := rsum (map (fun x => coord i x * coord j x) l).
  Definition niw_stat (d : nat) (l : list (list R)) : niw_group R :=
    mk_niw (Z.of_nat (length l)) (tab d (sx l)) (mtab d (sxx l)).

  Lemma rsum_perm l l' : Permutation l l' -> rsum l = rsum l'.
  Proof. induction 1; cbn [rsum]; lra. Qed.
  Lemma rsum_app a b : rsum (a ++ b) = rsum a + rsum b.
  Proof. induction a as [|x a IH]; cbn [app rsum]; lra. Qed.
  Lemma rsum_repeat (c : R) n : rsum (repeat c n) = INR n * c.
  Proof. induction n as [|n IH]; [cbn; lra|]. cbn [repeat rsum]. rewrite IH, S_INR. lra. Qed.
  Lemma map_repeat' {A B} (h : A -> B) a n : map h (repeat a n) = repeat (h a) n.
  Proof. induction n as [|n IH]; cbn; [reflexivity|]. now rewrite IH. Qed.

  Variables (d dl : nat) (sh : niw_shared R).
  Hypothesis Hd : niw_dim sh = d.
  Notation C := (NIW R (N:=NumR lg)).

  Lemma niw_stat_perm l l' : Permutation l l' -> niw_stat d l = niw_stat d l'.
  Proof.
    intro P. unfold niw_stat. rewrite (Permutation_length P). f_equal.
    - apply tab_ext. intros i _. apply rsum_perm. now apply Permutation_map.
    - apply mtab_ext. intros i j _ _. apply rsum_perm. now apply Permutation_map.
  Qed.
  Lemma vectors_perm l l' : Permutation l l' -> vectors d l -> vectors d l'.
  Proof.
    intros P [H1 H2]. split; [eapply short_perm; eauto|]. eapply Permutation_Forall; eauto.
  Qed.
  Lemma vectors_tail v l : vectors d (v :: l) -> vectors d l.
  Proof. intros [H1 H2]. split; [eapply short_tail; eauto|]. now inversion H2. Qed.
  Lemma vectors_nil : vectors d [].
  Proof. split; [unfold short; cbn; lia|constructor]. Qed.

  Lemma niw_init_stat : c_init C sh = niw_stat d [].
  Proof. cbn. unfold niw_init. rewrite Hd, v_zero_tab, m_zero_tab. reflexivity. Qed.

  Lemma dim_check (v : list R) : length v = d -> dassert_at dl 3 (niw_dim sh =? length v)%nat = Ok tt.
  Proof. intros E. unfold dassert_at. rewrite E, Hd, Nat.eqb_refl. now destruct (3 <=? dl). Qed.

  Lemma niw_bin_stat (h : R -> R -> R) n (f1 f2 : nat -> R) (g1 g2 : nat -> nat -> R) m (f : nat -> R) (g : nat -> nat -> R) x2 y2 :
    x2 = tab d f2 -> y2 = mtab d g2 -> (i32_min <= n <= i32_max)%Z -> n = m ->
    (forall i, (i < d)%nat -> h (f1 i) (f2 i) = f i) ->
    (forall i j, (i < d)%nat -> (j < d)%nat -> h (g1 i j) (g2 i j) = g i j) ->
    (let* count := i32 n in
     let* sum_x := v_bin h (tab d f1) x2 in
     let* sum_xxT := m_bin h (mtab d g1) y2 in
     Ok (mk_niw count sum_x sum_xxT)) = Ok (mk_niw m (tab d f) (mtab d g)).
  Proof.
    intros -> -> Hn <- Hf Hg. rewrite i32_ok by exact Hn. cbn [obind]. rewrite v_bin_tab. cbn [obind]. rewrite m_bin_tab.
    cbn [obind]. f_equal. f_equal; [now apply tab_ext|now apply mtab_ext].
  Qed.

  Lemma outer_self v : length v = d -> outer (N:=NumR lg) v v = mtab d (fun i j => coord i v * coord j v).
  Proof. intro E. rewrite (tab_self d v E) at 1 2. apply outer_tab. Qed.

  Lemma niw_add_stat l v : vectors d (v :: l) -> c_add C dl sh (niw_stat d l) v = Ok (niw_stat d (v :: l)).
  Proof.
    intros [H1 H2]. unfold short in H1. cbn [length] in H1. apply Forall_inv in H2. cbn -[nadd]. unfold niw_add.
    rewrite (dim_check v H2). cbn [obind niw_stat nw_count nw_sum_x nw_sum_xxT].
    eapply niw_bin_stat; [now apply tab_self|now apply outer_self|..]; unfold i32_min, i32_max; try (cbn [length]; lia);
      intros; unfold sx, sxx; cbn [map rsum nadd NumR]; apply Rplus_comm.
  Qed.

  Lemma niw_rem_stat l v : vectors d (v :: l) -> c_rem C dl sh (niw_stat d (v :: l)) v = Ok (niw_stat d l).
  Proof.
    intros [H1 H2]. unfold short in H1. cbn [length] in H1. apply Forall_inv in H2. cbn -[nsub length Z.of_nat]. unfold niw_rem.
    rewrite (dim_check v H2). cbn [obind niw_stat nw_count nw_sum_x nw_sum_xxT].
    eapply niw_bin_stat; [now apply tab_self|now apply outer_self|..]; unfold i32_min, i32_max; try (cbn [length]; lia);
      intros; unfold sx, sxx; cbn [map rsum nsub NumR]; lra.
  Qed.

  Lemma niw_rep_stat l v n : length v = d -> vectors d (repeat v n ++ l) ->
    c_rep C dl sh (niw_stat d l) v (Z.of_nat n) = Ok (niw_stat d (repeat v n ++ l)).
  Proof.
    intros H2 [H1 _]. unfold short in H1. rewrite app_length, repeat_length in H1. cbn -[nadd nmul nof]. unfold niw_rep.
    rewrite (dim_check v H2). cbn [obind niw_stat nw_count nw_sum_x nw_sum_xxT].
    eapply niw_bin_stat; [etransitivity; [apply f_equal, (tab_self d v H2)|apply v_map_tab]|rewrite (outer_self v H2); apply m_map_tab|..]; unfold i32_min, i32_max; try (rewrite ?app_length, ?repeat_length; lia);
      intros; unfold sx, sxx; rewrite map_app, map_repeat', rsum_app, rsum_repeat; cbn [nadd nmul nof NumR];
      rewrite <- INR_IZR_INZ; lra.
  Qed.

  Lemma niw_merge_stat l ys : vectors d (ys ++ l) ->
    c_merge C dl sh (niw_stat d l) (niw_stat d ys) = Ok (niw_stat d (ys ++ l)).
  Proof.
    intros [H1 _]. unfold short in H1. rewrite app_length in H1. cbn -[nadd]. unfold niw_merge.
    cbn [niw_stat nw_count nw_sum_x nw_sum_xxT].
    eapply niw_bin_stat; [reflexivity|reflexivity|..]; unfold i32_min, i32_max; try (rewrite ?app_length; lia);
      intros; unfold sx, sxx; rewrite map_app, rsum_app; cbn [nadd NumR]; lra.
  Qed.

  Lemma niw_filled l : vectors d l -> c_filled C dl sh l = Ok (niw_stat d l).
  Proof.
    apply (filled_stat C dl sh (niw_stat d) (vectors d)).
    - exact niw_init_stat.
    - exact niw_stat_perm.
    - exact vectors_perm.
    - exact vectors_tail.
    - exact niw_add_stat.
  Qed.

  Lemma niw_history ops l : ghistory (vec_op d) (vectors d) [] ops l ->
    grun C dl sh (c_init C sh) ops = Ok (niw_stat d l).
  Proof.
    apply (grun_init C dl sh (niw_stat d) (vec_op d) (vectors d)).
    - exact niw_init_stat.
    - exact niw_stat_perm.
    - exact vectors_nil.
    - exact vectors_perm.
    - exact vectors_tail.
    - exact niw_add_stat.
    - exact niw_rem_stat.
    - intros l0 v n O. now apply niw_rep_stat.
    - intros l0 ys _. apply niw_merge_stat.
  Qed.
End R.
