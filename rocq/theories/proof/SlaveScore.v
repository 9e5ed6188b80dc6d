(** Consequences for scores; exact-arithmetic identities of BNB and DD. *)
From Coq Require Import Reals Lra.
From Verif.spec Require Import GroupSpec GaussSpec SlaveSpec.
From Verif.model Require Import Base Packed Num NumR VectorMath Component Slave SlaveRun BB GP BNB NICH DD.
From Verif.proof Require Import BaseProof VectorProof PackedProof LoopProof LgammaProof ScoreProof DDScore ClosedForm
  SlaveProof SlaveInst DDSlave.

Section Cor.
  Context {C : component} {F : Type} {N : Num F}.
  Variables (S : vscorer C F) (dl : nat) (sh : shared_t C) (W : group_t C -> Prop) (okv : value_t C -> Prop).
  Variables (cache : list (group_t C) -> vs_t S) (fsc : group_t C -> value_t C -> F).
  Hypothesis H : coherent S dl sh W okv cache fsc.
  Variable gscore : nat -> shared_t C -> group_t C -> value_t C -> outcome F.
  Notation slow := (small_vscorer gscore).

  Lemma slow_group (q : slave slow) i g v : nth_error (sl_groups q) i = Some g ->
    slave_score_value_group slow dl sh q i v = gscore dl sh g v.
  Proof.
    intro Hg. unfold slave_score_value_group. cbn [vs_score_group small_vscorer]. unfold small_score_group.
    rewrite !dassert_at_true by (apply Nat.ltb_lt, (nth_lt _ _ _ Hg)). cbn [obind]. now rewrite (vget_nth _ _ _ Hg).
  Qed.
  Lemma slow_score (q : slave slow) v accum : length accum = length (sl_groups q) ->
    Forall (fun g => gscore dl sh g v = Ok (fsc g v)) (sl_groups q) ->
    slave_score_value slow dl sh q v accum = Ok (col_add accum (map (fun g => fsc g v) (sl_groups q))).
  Proof.
    intros Hl Hf. unfold slave_score_value. cbn [vs_score small_vscorer]. unfold small_score.
    rewrite !dassert_at_true by (apply Nat.eqb_eq, Hl). cbn [obind]. rewrite <- Hl at 1. apply accum_loop; [exact Hl|].
    intros i x g Hx Hg. rewrite (vget_nth _ _ _ Hg). cbn [obind].
    rewrite (Forall_nth_error _ _ _ _ Hf Hg). reflexivity.
  Qed.

  (** What a good state guarantees beside the cacheless one. *)
  Lemma twin_fresh s q : twin S W cache gscore s q ->
    sl_groups s = sl_groups q /\ forall t, slave_init S dl sh (mk_slave (sl_groups s) t) = Ok s.
  Proof.
    intros [Hs Hg]. split; [exact Hg|]. intro t. eapply good_fresh; eauto.
  Qed.
  Lemma twin_scores s q v : twin S W cache gscore s q -> okv v ->
    Forall (fun g => gscore dl sh g v = Ok (fsc g v)) (sl_groups q) ->
    (forall i, i < length (sl_groups s) ->
       slave_score_value_group S dl sh s i v = slave_score_value_group slow dl sh q i v) /\
    (forall accum, length accum = length (sl_groups s) ->
       slave_score_value S dl sh s v accum = slave_score_value slow dl sh q v accum).
  Proof.
    intros [Hs Hg] Hv Hf. split.
    - intros i Hi. destruct (vget_some (sl_groups s) i Hi) as (g & Eg & _).
      rewrite (good_group S dl sh W okv cache fsc H s i g v Hs Hv Eg). rewrite Hg in Eg. rewrite (slow_group q i g v Eg).
      now rewrite (Forall_nth_error _ _ _ _ Hf Eg).
    - intros accum Hl. rewrite (good_score S dl sh W okv cache fsc H s v accum Hs Hv Hl). rewrite Hg in Hl |- *.
      now rewrite (slow_score q v accum Hl Hf).
  Qed.
  Lemma start_good gs t ops s : Forall W gs -> slave_start S dl sh gs t ops = Ok s -> good S W cache s.
  Proof.
    intros HW E. pose proof (start_twin S dl sh W okv cache fsc H gscore gs t tt ops HW) as Ht.
    rewrite E in Ht. destruct (slave_start slow dl sh gs tt ops); cbn [agrees] in Ht; try contradiction. apply Ht.
  Qed.
  Lemma start_added gs t ops s v accum : Forall W gs -> slave_start S dl sh gs t ops = Ok s -> okv v ->
    length accum = length (sl_groups s) ->
    exists r, slave_score_value S dl sh s v accum = Ok r /\
      added nadd accum r (fun i => slave_score_value_group S dl sh s i v).
  Proof. intros HW E Hv Hl. eapply good_added; eauto. eapply start_good; eauto. Qed.
End Cor.

Lemma agrees_imp {A B} (P Q : A -> B -> Prop) x y : (forall a b, P a b -> Q a b) -> agrees P x y -> agrees Q x y.
Proof. intros H. destruct x, y; cbn [agrees]; auto. Qed.

Lemma coherent_strengthen {C : component} {F : Type} {N : Num F} (S : vscorer C F) dl sh (W W' : group_t C -> Prop) okv cache fsc :
  coherent S dl sh W okv cache fsc -> (forall g, W' g -> W g) -> W' (c_init C sh) ->
  (forall g v g', W' g -> c_add C dl sh g v = Ok g' -> W' g') ->
  (forall g v g', W' g -> c_rem C dl sh g v = Ok g' -> W' g') -> coherent S dl sh W' okv cache fsc.
Proof.
  intros H Hi H0 Ha Hr. assert (HF : forall gs, Forall W' gs -> Forall W gs) by (intros; eapply Forall_impl; eauto).
  destruct H. split; auto; intros; eauto.
Qed.

Local Open Scope R_scope.
Lemma bnb_fast_eq lg (sh : bnb_shared R) g v : bnb_fast (N:=NumR lg) sh g v = bnb_score_value (N:=NumR lg) sh g v.
Proof.
  unfold bnb_fast, bnb_score_value, bnb_scorer_init, bnb_plus_group.
  cbn [bns_post_beta bns_score bns_alpha bnb_alpha bnb_beta bnb_r nof nadd nsub nmul nlgamma NumR].
  rewrite (Rplus_comm (bnb_beta sh + IZR (bnb_sum g) + IZR v)). lra.
Qed.

Definition dd_sums (sh : dd_shared R) (g : dd_group) : Prop :=
  length (dd_counts g) = dd_dim sh /\ dd_count_sum g = zsum (dd_counts g).

Lemma zsum_upd l i x : (i < length l)%nat -> zsum (upd l i x) = (zsum l + x - nth i l 0)%Z.
Proof. revert i. induction l as [|a l IH]; intros [|i] Hi; cbn [length upd zsum nth] in *; try lia. rewrite IH by lia. lia. Qed.

Lemma bump_sums sh dl g v n g' : dd_bump dl g v n = Ok g' -> dd_sums sh g -> dd_sums sh g'.
Proof.
  intros E [Hl Hs]. destruct (bump_inv sh _ _ _ _ _ E Hl) as (Hv & Hl' & Hc & Hs' & Hcv). split; [exact Hl'|].
  rewrite Hs', Hs.
  assert (dd_counts g' = upd (dd_counts g) (Z.to_nat v) (cnt g (Z.to_nat v) + n)%Z) as ->.
  { unfold dd_okv in Hv. assert (Hlt : (Z.to_nat v < length (dd_counts g))%nat) by lia.
    apply nth_error_ext. intro i. destruct (PeanoNat.Nat.eq_dec i (Z.to_nat v)) as [->|Hne].
    - rewrite nth_error_upd_eq by exact Hlt. rewrite <- Hcv. apply nth_error_nth'. unfold dd_okg in Hl'. lia.
    - rewrite nth_error_upd_ne by lia. destruct (PeanoNat.Nat.lt_ge_cases i (length (dd_counts g))) as [Hi|Hi].
      + rewrite !(nth_error_nth' _ 0%Z) by (unfold dd_okg in Hl'; lia). f_equal. apply (Hc i Hne).
      + transitivity (@None Z); [|symmetry]; apply nth_error_None; unfold dd_okg in Hl'; lia. }
  rewrite zsum_upd by (unfold dd_okv in Hv; lia). unfold cnt. lia.
Qed.

Lemma dd_coherent_sums lg (sh : dd_shared R) dl :
  coherent (N:=NumR lg) (dd_vscorer (N:=NumR lg)) dl sh (dd_sums sh) (dd_okv sh) (dd_cache (N:=NumR lg) sh) (dd_fast (N:=NumR lg) sh).
Proof.
  eapply coherent_strengthen; [exact (dd_coherent (N:=NumR lg) sh dl)| | | |].
  - intros g [H _]. exact H.
  - split; [apply repeat_length|]. cbn [c_init DD dd_init dd_count_sum dd_counts].
    induction (dd_dim sh); cbn [repeat zsum]; auto; lia.
  - intros g v g' Hg E. eapply bump_sums; [exact E|exact Hg].
  - intros g v g' Hg E. eapply bump_sums; [exact E|exact Hg].
Qed.

Lemma fold_left_Rplus l : forall a, fold_left Rplus l a = a + rsum l.
Proof. induction l as [|x l IH]; intro a; cbn [fold_left rsum]; [lra|]. rewrite IH. lra. Qed.
Lemma sumf_cn g : sumf (cn g) (length (dd_counts g)) = IZR (zsum (dd_counts g)).
Proof.
  unfold cn. generalize (dd_counts g). clear. intro l. induction l as [|c l IH]; [reflexivity|].
  cbn [length zsum]. rewrite sumf_S_l, plus_IZR. cbn [nth]. now rewrite <- IH.
Qed.

Lemma dd_fast_eq lg dl (sh : dd_shared R) g v : dd_sums sh g -> dd_okv sh v ->
  List.Forall (fun a => 0 < a) (dd_alphas sh) -> List.Forall (fun c => (0 <= c)%Z) (dd_counts g) ->
  dd_score_value (N:=NumR lg) dl sh g v = Ok (dd_fast (N:=NumR lg) sh g v).
Proof.
  intros [Hl Hs] Hv Ha Hc. unfold dd_okv in Hv.
  rewrite <- (Z2Nat.id v) at 1 by lia. rewrite dd_score_value_eq by (auto; lia). f_equal.
  unfold dd_fast, tot, dd_asum. cbn [nsub nlog nadd nof NumR]. rewrite fold_left_Rplus, Hs.
  assert (HT : sumf (fun i => rn (dd_alphas sh) i + cn g i) (dd_dim sh) = 0 + rsum (dd_alphas sh) + IZR (zsum (dd_counts g))).
  { rewrite sumf_plus. rewrite <- Hl at 2. rewrite sumf_cn. unfold dd_dim. rewrite rsum_rn. lra. }
  assert (P : forall i, (i < dd_dim sh)%nat -> 0 < rn (dd_alphas sh) i + cn g i).
  { intros i Hi. assert (0 < rn (dd_alphas sh) i) by (rewrite Forall_forall in Ha; apply Ha, nth_In, Hi).
    assert (0 <= cn g i) by (unfold cn; apply (IZR_le 0); rewrite Forall_forall in Hc; apply Hc, nth_In; lia). lra. }
  assert (PT : 0 < sumf (fun i => rn (dd_alphas sh) i + cn g i) (dd_dim sh)) by (apply sumf_pos; [lia|exact P]).
  rewrite HT in PT |- *. fold (rn (dd_alphas sh) (Z.to_nat v)). change (IZR (cnt g (Z.to_nat v))) with (cn g (Z.to_nat v)).
  unfold Rdiv. rewrite ln_mult; [|apply P; lia|now apply Rinv_0_lt_compat]. rewrite ln_Rinv by exact PT. reflexivity.
Qed.
