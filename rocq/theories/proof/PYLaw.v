(** The Pitman-Yor sampler draws a label sequence with probability exp(score_counts). *)
From Coq Require Import List ZArith Reals Lra Lia Permutation.
From Verif.model Require Import Base Num NumR PitmanYor Random Sampler.
From Verif.spec Require Import DriverSpec PartitionSpec LgammaSpec LabelSpec RandomSpec LawSpec.
From Verif.proof Require Import BaseProof RandomProof SamplerProof PitmanYorR.
Import ListNotations.
Local Open Scope R_scope.

Lemma seating_snoc add rest g : forall past,
  seating_score add past (rest ++ [g]) = seating_score add past rest +
    add (Z.of_nat (count_occ Nat.eq_dec (rev rest ++ past) g))
        (Z.of_nat (length (nodup Nat.eq_dec (rev rest ++ past))))
        (Z.of_nat (length (rev rest ++ past))).
Proof.
  induction rest as [|h rest IH]; intro past; cbn [app seating_score rev]; [lra|].
  rewrite IH, <- app_assoc. cbn [app]. lra.
Qed.

Lemma labels_nonneg k a : (0 <= k)%Z -> labels_from k a -> Forall (fun x => 0 <= x)%Z a.
Proof.
  revert k. induction a as [|x a IH]; intros k Hk H; constructor; cbn in H; [lia|].
  apply (IH (if (x =? k)%Z then (k + 1)%Z else k)); [destruct (x =? k)%Z; lia|apply H].
Qed.
Lemma count_nat p g : Forall (fun x => 0 <= x)%Z p -> count_occ Nat.eq_dec (map Z.to_nat p) g = count_occ Z.eq_dec p (Z.of_nat g).
Proof.
  induction 1 as [|x p Hx _ IH]; [reflexivity|]. cbn [map count_occ].
  destruct (Nat.eq_dec (Z.to_nat x) g); destruct (Z.eq_dec x (Z.of_nat g)); try lia.
Qed.
Lemma sizes_nat p : labels_from 0 p -> group_sizes (Z.to_nat (next_label 0 p)) (map Z.to_nat p) = label_sizes (next_label 0 p) p.
Proof.
  intro H. unfold group_sizes, label_sizes. apply map_ext. intro g. rewrite count_nat by (now apply (labels_nonneg 0)). reflexivity.
Qed.
Lemma nodup_labels p : labels_from 0 p -> length (nodup Nat.eq_dec (rev (map Z.to_nat p))) = Z.to_nat (next_label 0 p).
Proof.
  intro H. pose proof (labels_nonneg 0 p ltac:(lia) H) as Hn.
  apply Nat.le_antisymm.
  - rewrite <- (seq_length (Z.to_nat (next_label 0 p)) 0). apply NoDup_incl_length; [apply NoDup_nodup|].
    intros g Hg. apply nodup_In, in_rev, in_map_iff in Hg. destruct Hg as (x & <- & Hx).
    pose proof (labels_lt 0 p x H Hx). pose proof (proj1 (Forall_forall _ _) Hn x Hx). cbn beta in *. apply in_seq. lia.
  - rewrite <- (seq_length (Z.to_nat (next_label 0 p)) 0) at 1. apply NoDup_incl_length; [apply seq_NoDup|].
    intros g Hg. apply in_seq in Hg. apply nodup_In. rewrite <- in_rev. apply in_map_iff. exists (Z.of_nat g).
    split; [apply Nat2Z.id|]. pose proof (occ_used p 0 (Z.of_nat g)) as O. unfold occ in O.
    apply (count_occ_In Z.eq_dec). lia.
Qed.

Section L.
  Variable lg : R -> R.
  Hypothesis Hlg : lgamma_like lg.
  Variable m : py R.
  Hypothesis Hm : 0 < alpha m /\ 0 <= disc m < 1.
  Notation W a := (py_weights (alpha m) (disc m) a).
  Definition joint (a : list Z) : R := exp (py_score_counts (N := NumR lg) m (label_sizes (next_label 0 a) a)).

  Lemma below p : labels_from 0 p -> forall k, (Z.to_nat (next_label 0 p) <= k)%nat -> Forall (fun g => g < k)%nat (map Z.to_nat p).
  Proof.
    intros H k Hk. apply Forall_forall. intros g Hg. apply in_map_iff in Hg as (x & <- & Hx).
    pose proof (labels_lt 0 p x H Hx). pose proof (proj1 (Forall_forall _ _) (labels_nonneg 0 p ltac:(lia) H) x Hx). cbn beta in *. lia.
  Qed.
  Lemma joint_nil : joint [] = 1.
  Proof. unfold joint, label_sizes. cbn [next_label Z.to_nat seq map]. unfold py_score_counts. cbn. apply exp_0. Qed.
  Lemma W_nth p x : labels_from 0 p -> (0 <= x <= next_label 0 p)%Z ->
    nth (Z.to_nat x) (W p) 0 = if (x =? next_label 0 p)%Z then alpha m + disc m * IZR (next_label 0 p) else IZR (occ x p) - disc m.
  Proof.
    intros H Hx. unfold py_weights.
    assert (L : length (map (fun c => IZR c - disc m) (label_sizes (next_label 0 p) p)) = Z.to_nat (next_label 0 p)).
    { rewrite map_length. apply label_sizes_length. }
    destruct (Z.eqb_spec x (next_label 0 p)) as [->|Hne].
    - rewrite app_nth2 by lia. rewrite L, Nat.sub_diag. reflexivity.
    - rewrite app_nth1 by lia. apply nth_error_nth. rewrite nth_error_map, label_sizes_nth by lia.
      cbn. now rewrite Z2Nat.id by lia.
  Qed.
  Lemma joint_snoc p x : labels_from 0 (p ++ [x]) ->
    joint (p ++ [x]) = joint p * (nth (Z.to_nat x) (W p) 0 / (IZR (Z.of_nat (length p)) + alpha m)).
  Proof.
    intro H. pose proof H as H'. apply labels_app in H'. destruct H' as [Hp [Hx _]]. pose proof (next_ge 0 p) as Hk.
    unfold joint. rewrite <- !sizes_nat by assumption.
    rewrite !(score_counts_is_seating lg Hlg) by (try assumption; apply below; auto).
    rewrite map_app. cbn [map]. rewrite seating_snoc, exp_plus, app_nil_r. f_equal.
    rewrite count_occ_rev, nodup_labels, rev_length, map_length, Z2Nat.id by (assumption || lia).
    rewrite count_nat by (now apply (labels_nonneg 0)). rewrite Z2Nat.id by lia. fold (occ x p).
    rewrite score_add_is_rule; [|exact Hm|unfold occ; lia|lia|lia|lia].
    unfold py_rule. rewrite W_nth by (assumption || lia).
    assert (0 <= IZR (Z.of_nat (length p))) by (apply (IZR_le 0); lia).
    destruct (Z.eqb_spec x (next_label 0 p)) as [->|Hne].
    - rewrite occ_fresh by (assumption || lia). destruct (Req_EM_T 0 0); [|lra]. field. lra.
    - destruct (Req_EM_T (IZR (occ x p)) 0) as [E|_]; [|reflexivity].
      apply eq_IZR in E. pose proof (occ_used p 0 x ltac:(lia)). lia.
  Qed.

  (** ** The box of draws that give [a] *)
  Definition blo (a : list Z) (i : nat) : R :=
    cum (W (firstn i a)) (Z.to_nat (nth i a 0%Z)) / (IZR (Z.of_nat i) + alpha m).
  Definition bhi (a : list Z) (i : nat) : R :=
    cum (W (firstn i a)) (S (Z.to_nat (nth i a 0%Z))) / (IZR (Z.of_nat i) + alpha m).
  Lemma tot_pos i : 0 < IZR (Z.of_nat i) + alpha m.
  Proof. assert (0 <= IZR (Z.of_nat i)) by (apply (IZR_le 0); lia). lra. Qed.
  Lemma cum_next l i : (i < length l)%nat -> cum l (S i) = cum l i + nth i l 0.
  Proof. intro H. apply cum_step. now apply nth_error_nth'. Qed.

  Lemma split_at (a : list Z) i : (i < length a)%nat -> a = firstn i a ++ nth i a 0%Z :: skipn (S i) a.
  Proof.
    revert i. induction a as [|x a IH]; intros i H; cbn [length] in H; [lia|]. destruct i as [|i]; [reflexivity|].
    cbn [firstn nth skipn app]. f_equal. apply IH. lia.
  Qed.
  Lemma prefix_labels a i : labels_from 0 a -> (i < length a)%nat ->
    labels_from 0 (firstn i a) /\ (0 <= nth i a 0 <= next_label 0 (firstn i a))%Z.
  Proof.
    intros H Hi. rewrite (split_at a i Hi) in H. apply labels_app in H. destruct H as [Hp [Hx _]]. auto.
  Qed.
  Lemma box_sub a i : labels_from 0 a -> (i < length a)%nat -> 0 <= blo a i <= bhi a i /\ bhi a i <= 1.
  Proof.
    intros H Hi. destruct (prefix_labels a i H Hi) as [Hp Hx]. unfold blo, bhi.
    pose proof (tot_pos i) as Ht. pose proof (W_nonneg m Hm _ Hp) as Hw.
    pose proof (W_sum m _ Hp) as Hs. rewrite firstn_length, Nat.min_l in Hs by lia.
    set (k := Z.to_nat (nth i a 0%Z)). assert (c0 : cum (W (firstn i a)) 0 = 0) by reflexivity.
    pose proof (cum_mono _ 0 k Hw ltac:(lia)). pose proof (cum_mono _ k (S k) Hw ltac:(lia)).
    pose proof (cum_mono _ (S k) (S k + length (W (firstn i a)))%nat Hw ltac:(lia)) as B.
    rewrite (cum_all _ (S k + _)) in B by lia. rewrite c0 in *.
    split; [split|].
    - apply Rmult_le_pos; [assumption|]. left. now apply Rinv_0_lt_compat.
    - apply Rmult_le_compat_r; [left; now apply Rinv_0_lt_compat|assumption].
    - apply Rmult_le_reg_r with (IZR (Z.of_nat i) + alpha m); [exact Ht|]. unfold Rdiv. rewrite Rmult_assoc, Rinv_l by lra. lra.
  Qed.

  Lemma volume_ext lo hi lo' hi' n : (forall i, (i < n)%nat -> lo i = lo' i /\ hi i = hi' i) -> volume lo hi n = volume lo' hi' n.
  Proof.
    induction n as [|n IH]; intro H; cbn [volume]; [reflexivity|]. rewrite IH by (intros; apply H; lia).
    destruct (H n ltac:(lia)) as [-> ->]. reflexivity.
  Qed.
  Lemma box_volume a : labels_from 0 a -> volume (blo a) (bhi a) (length a) = joint a.
  Proof.
    induction a as [|x a IH] using rev_ind; intro H; [symmetry; apply joint_nil|].
    pose proof H as H'. apply labels_app in H'. destruct H' as [Hp [Hx _]].
    rewrite app_length, Nat.add_1_r. cbn [volume].
    rewrite (volume_ext _ _ (blo a) (bhi a)).
    2:{ intros i Hi. unfold blo, bhi. rewrite firstn_app, app_nth1 by exact Hi.
        replace (i - length a)%nat with 0%nat by lia. cbn [firstn]. rewrite app_nil_r. auto. }
    rewrite (IH Hp), (joint_snoc a x H). f_equal. unfold blo, bhi.
    rewrite firstn_app, firstn_all, Nat.sub_diag, app_nth2, Nat.sub_diag by lia. cbn [firstn nth]. rewrite app_nil_r.
    rewrite cum_next; [unfold Rdiv; ring|]. rewrite W_length. lia.
  Qed.

  Lemma chosen_box u a i : labels_from 0 a -> (i < length a)%nat -> 0 < u ->
    chosen m u (firstn i a) (nth i a 0%Z) <-> blo a i < u <= bhi a i.
  Proof.
    intros H Hi Hu. unfold chosen, blo, bhi. rewrite firstn_length, Nat.min_l by lia. pose proof (tot_pos i) as Ht.
    set (t := IZR (Z.of_nat i) + alpha m) in *.
    assert (E1 : forall c, c / t < u <-> c < t * u).
    { intro c. split; intro Hc.
      - apply Rmult_lt_compat_r with (r := t) in Hc; [|exact Ht]. unfold Rdiv in Hc. rewrite Rmult_assoc, Rinv_l in Hc by lra. lra.
      - apply Rmult_lt_reg_r with t; [exact Ht|]. unfold Rdiv. rewrite Rmult_assoc, Rinv_l by lra. lra. }
    assert (E2 : forall c, u <= c / t <-> t * u <= c).
    { intro c. split; intro Hc.
      - apply Rnot_lt_le. intro. apply E1 in H0. lra.
      - apply Rnot_lt_le. intro. apply E1 in H0. lra. }
    rewrite E1, E2. split; intros [A B]; (split; [|exact B]); [|auto].
    destruct (Z.eq_dec (nth i a 0%Z) 0) as [->|Hne]; [|auto]. cbn. apply Rmult_lt_0_compat; assumption.
  Qed.

  Lemma chosen_unique u p x y : labels_from 0 p -> (0 <= x)%Z -> (0 <= y)%Z -> 0 < u ->
    chosen m u p x -> chosen m u p y -> x = y.
  Proof.
    intros Hp Hx Hy Hu [A1 A2] [B1 B2]. pose proof (W_nonneg m Hm _ Hp) as Hw.
    destruct (Z.lt_trichotomy x y) as [C|[C|C]]; [|exact C|]; exfalso.
    - specialize (B1 ltac:(lia)). pose proof (cum_mono _ (S (Z.to_nat x)) (Z.to_nat y) Hw ltac:(lia)). lra.
    - specialize (A1 ltac:(lia)). pose proof (cum_mono _ (S (Z.to_nat y)) (Z.to_nat x) Hw ltac:(lia)). lra.
  Qed.

  Lemma sampler_box a u : labels_from 0 a -> (forall i, 0 < u i < 1) ->
    py_sample_assignments (N := NumR lg) m (length a) u = Ok a <-> (forall i, (i < length a)%nat -> blo a i < u i <= bhi a i).
  Proof.
    intros H Hu. destruct (py_sample_R lg m Hm (length a) u) as (b & E & Hl & HL & HC & _); [intro i; specialize (Hu i); lra|].
    assert (C0 : forall x, x = 0%Z -> chosen m (u 0%nat) [] x).
    { intros x ->. split; [lia|]. specialize (Hu 0%nat).
      change (cum (W []) (S (Z.to_nat 0))) with (alpha m + disc m * 0 + 0). change (IZR (Z.of_nat (length (@nil Z)))) with 0. nra. }
    unfold NR' in E. rewrite E. split.
    - intros Eb i Hi. injection Eb as ->. apply chosen_box; [assumption|assumption|apply Hu|].
      destruct i as [|i].
      + destruct a as [|x a]; [cbn in Hi; lia|]. cbn [firstn nth]. apply C0. cbn in HL. lia.
      + pose proof (split_at a (S i) Hi) as S. specialize (HC _ _ _ S). rewrite firstn_length, Nat.min_l in HC by lia.
        apply HC. destruct a; [cbn in Hi; lia|discriminate].
    - intro HB. f_equal.
      assert (P : forall i, (i <= length a)%nat -> firstn i b = firstn i a).
      { induction i as [|i IH]; intro Hi; [reflexivity|]. specialize (IH ltac:(lia)).
        assert (La : (i < length a)%nat) by lia. assert (Lb : (i < length b)%nat) by lia.
        assert (F : forall l : list Z, (i < length l)%nat -> firstn (S i) l = firstn i l ++ [nth i l 0%Z]).
        { intros l Hl'. rewrite (split_at l i Hl') at 1. rewrite firstn_app, firstn_firstn, firstn_length.
          rewrite (Nat.min_r (S i) i), (Nat.min_l i (length l)) by lia. replace (S i - i)%nat with 1%nat by lia. reflexivity. }
        rewrite (F a La), (F b Lb), IH. f_equal. f_equal.
        destruct (prefix_labels a i H La) as [Hpa Hxa]. destruct (prefix_labels b i HL Lb) as [Hpb Hxb].
        apply (chosen_unique (u i) (firstn i a)); [assumption|lia|lia|apply Hu| |apply chosen_box; [assumption|exact La|apply Hu|now apply HB]].
        rewrite <- IH. destruct i as [|i].
        - cbn [firstn]. apply C0. change (next_label 0 (firstn 0 b)) with 0%Z in Hxb. lia.
        - pose proof (split_at b (S i) Lb) as S. specialize (HC _ _ _ S). rewrite firstn_length, Nat.min_l in HC by lia.
          apply HC. destruct b; [cbn in Lb; lia|discriminate]. }
      specialize (P (length a) (Nat.le_refl _)). rewrite firstn_all in P. rewrite <- P. rewrite <- Hl. symmetry. apply firstn_all.
  Qed.

  (** ** Normalisation *)
  Fixpoint all_labels (n : nat) : list (list Z) :=
    match n with
    | O => [[]]
    | S n' => flat_map (fun p => map (fun x => p ++ [Z.of_nat x]) (seq 0 (S (Z.to_nat (next_label 0 p))))) (all_labels n')
    end.
  Lemma all_labels_in n : forall a, In a (all_labels n) <-> length a = n /\ labels_from 0 a.
  Proof.
    induction n as [|n IH]; intro a; cbn [all_labels].
    - split; [intros [<-|[]]; now split|]. intros [E _]. destruct a; [now left|discriminate].
    - rewrite in_flat_map. split.
      + intros (p & Hp & Ha). apply IH in Hp as [Hl HL]. apply in_map_iff in Ha as (x & <- & Hx). apply in_seq in Hx.
        rewrite app_length, labels_app. split; [cbn; lia|]. split; [exact HL|]. cbn. pose proof (next_ge 0 p). lia.
      + intros [Hl HL]. destruct (exists_last (l := a)) as (p & x & ->); [intros ->; discriminate|].
        rewrite app_length in Hl. apply labels_app in HL. destruct HL as [Hp [Hx _]].
        exists p. split; [apply IH; split; [cbn in Hl; lia|exact Hp]|]. apply in_map_iff. exists (Z.to_nat x).
        rewrite Z2Nat.id by lia. split; [reflexivity|]. apply in_seq. lia.
  Qed.
  Lemma nodup_app {A} (a b : list A) : NoDup a -> NoDup b -> (forall x, In x a -> ~ In x b) -> NoDup (a ++ b).
  Proof.
    induction 1 as [|x a Hx _ IH]; intros Hb H; [exact Hb|]. cbn [app]. constructor.
    - rewrite in_app_iff. intros [K|K]; [contradiction|]. apply (H x); [now left|exact K].
    - apply IH; [exact Hb|]. intros y Hy. apply H. now right.
  Qed.
  Lemma all_labels_nodup n : NoDup (all_labels n).
  Proof.
    induction n as [|n IH]; cbn [all_labels]; [constructor; [intros []|constructor]|].
    revert IH. generalize (all_labels n). induction l as [|p l IH]; intro H; cbn [flat_map]; [constructor|].
    apply NoDup_cons_iff in H as [Hp H]. specialize (IH H). apply nodup_app; [|exact IH|].
    - apply FinFun.Injective_map_NoDup; [|apply seq_NoDup]. intros x y E. apply app_inj_tail in E as [_ E]. lia.
    - intros a Ha Hb. apply in_map_iff in Ha as (x & <- & _). apply in_flat_map in Hb as (q & Hq & Hb).
      apply in_map_iff in Hb as (y & E & _). apply app_inj_tail in E as [-> _]. contradiction.
  Qed.
  Lemma rsum_app' a b : rsum (a ++ b) = rsum a + rsum b.
  Proof. induction a as [|x a IH]; cbn [app rsum]; [lra|]. rewrite IH. lra. Qed.
  Lemma rsum_scal {A} (f : A -> R) c l : rsum (map (fun x => c * f x) l) = c * rsum (map f l).
  Proof. induction l as [|x l IH]; cbn [map rsum]; [lra|]. rewrite IH. lra. Qed.
  Lemma rsum_nth l : rsum (map (fun x => nth x l 0) (seq 0 (length l))) = rsum l.
  Proof.
    induction l as [|x l IH]; [reflexivity|]. cbn [length seq map rsum nth]. f_equal. rewrite <- IH.
    rewrite <- seq_shift, map_map. reflexivity.
  Qed.
  Lemma children p : labels_from 0 p ->
    rsum (map joint (map (fun x => p ++ [Z.of_nat x]) (seq 0 (S (Z.to_nat (next_label 0 p)))))) = joint p.
  Proof.
    intro H. rewrite map_map. pose proof (tot_pos (length p)) as Ht. pose proof (next_ge 0 p) as Hk.
    rewrite (map_ext_in _ (fun x => (joint p / (IZR (Z.of_nat (length p)) + alpha m)) * nth x (W p) 0)).
    - rewrite rsum_scal, <- (W_length m), rsum_nth, (W_sum m) by exact H. field. lra.
    - intros x Hx. apply in_seq in Hx. rewrite joint_snoc.
      + rewrite Nat2Z.id. unfold Rdiv. ring.
      + apply labels_app. split; [exact H|]. cbn. lia.
  Qed.
  Lemma total_all n : rsum (map joint (all_labels n)) = 1.
  Proof.
    induction n as [|n IH]; cbn [all_labels].
    - cbn [map rsum]. rewrite joint_nil. lra.
    - rewrite <- IH. assert (H : Forall (labels_from 0) (all_labels n)).
      { apply Forall_forall. intros p Hp. now apply all_labels_in in Hp. }
      clear IH. induction H as [|p l Hp _ IHl]; cbn [flat_map map rsum]; [reflexivity|].
      rewrite map_app, rsum_app', IHl, children by exact Hp. reflexivity.
  Qed.
  Lemma rsum_perm' l l' : Permutation l l' -> rsum l = rsum l'.
  Proof. induction 1; cbn [rsum]; lra. Qed.
  Lemma total_enumerated L n : enumerates L n -> rsum (map joint L) = 1.
  Proof.
    intros [Hn HL]. rewrite <- (total_all n). apply rsum_perm', Permutation_map. apply NoDup_Permutation; [exact Hn|apply all_labels_nodup|].
    intro a. rewrite HL, all_labels_in. reflexivity.
  Qed.
End L.
