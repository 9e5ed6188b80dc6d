(** Marginal likelihoods sum to one over all data sequences of a given length. *)
From Coq Require Import List ZArith Reals Lra Lia Permutation.
From Verif.model Require Import Base Num NumR Component BB DD.
From Verif.spec Require Import GroupSpec LgammaSpec PartitionSpec LawSpec.
From Verif.proof Require Import BaseProof GroupProof BBProof DDProof ScoreProof DDScore LgammaProof ClosedForm PYLaw.
Import ListNotations.
Local Open Scope R_scope.

Section Generic.
  Context {V : Type} (vals : list V) (M : list V -> R).
  Hypothesis Hv : NoDup vals.
  Hypothesis H0 : M [] = 1.
  Fixpoint seqs (n : nat) : list (list V) :=
    match n with O => [[]] | S n' => flat_map (fun l => map (fun v => v :: l) vals) (seqs n') end.
  Lemma seqs_in n : forall l, In l (seqs n) <-> length l = n /\ incl l vals.
  Proof.
    induction n as [|n IH]; intro l; cbn [seqs].
    - split; [intros [<-|[]]; split; [reflexivity|intros ? []]|]. intros [E _]. destruct l; [now left|discriminate].
    - rewrite in_flat_map. split.
      + intros (p & Hp & Hl). apply IH in Hp as [E I]. apply in_map_iff in Hl as (v & <- & Hv'). split; [cbn; lia|].
        intros x [<-|Hx]; auto.
      + intros [E I]. destruct l as [|v l]; [discriminate|]. exists l. split.
        * apply IH. split; [cbn in E; lia|]. intros x Hx. apply I. now right.
        * apply in_map_iff. exists v. split; [reflexivity|]. apply I. now left.
  Qed.
  Lemma seqs_nodup n : NoDup (seqs n).
  Proof.
    induction n as [|n IH]; cbn [seqs]; [constructor; [intros []|constructor]|].
    revert IH. generalize (seqs n). induction l as [|p l IH]; intro H; cbn [flat_map]; [constructor|].
    apply NoDup_cons_iff in H as [Hp H]. specialize (IH H). apply nodup_app; [|exact IH|].
    - apply FinFun.Injective_map_NoDup; [|exact Hv]. intros x y E. now injection E.
    - intros a Ha Hb. apply in_map_iff in Ha as (x & <- & _). apply in_flat_map in Hb as (q & Hq & Hb).
      apply in_map_iff in Hb as (y & E & _). injection E as -> ->. contradiction.
  Qed.
  Lemma seqs_total n : (forall l, (length l < n)%nat -> incl l vals -> rsum (map (fun v => M (v :: l)) vals) = M l) ->
    rsum (map M (seqs n)) = 1.
  Proof.
    induction n as [|n IH]; intro H; cbn [seqs].
    - cbn [map rsum]. rewrite H0. lra.
    - rewrite <- IH by (intros; apply H; [lia|assumption]).
      assert (K : Forall (fun l => (length l < S n)%nat /\ incl l vals) (seqs n)).
      { apply Forall_forall. intros p Hp. apply seqs_in in Hp as [E I]. split; [lia|exact I]. }
      clear IH. induction K as [|p l [Hp1 Hp2] _ IHl]; cbn [flat_map map rsum]; [reflexivity|].
      rewrite map_app, rsum_app', IHl, map_map, H by assumption. reflexivity.
  Qed.
  Lemma sequences_total n L : all_sequences vals n L ->
    (forall l, (length l < n)%nat -> incl l vals -> rsum (map (fun v => M (v :: l)) vals) = M l) ->
    rsum (map M L) = 1.
  Proof.
    intros [Hn HL] H. rewrite <- (seqs_total n H). apply rsum_perm', Permutation_map. apply NoDup_Permutation; [exact Hn|apply seqs_nodup|].
    intro l. rewrite HL, seqs_in. reflexivity.
  Qed.
End Generic.

Lemma bb_total lg (Hlg : lgamma_like lg) (sh : bb_shared R) n L : 0 < bb_alpha sh -> 0 < bb_beta sh ->
  (Z.of_nat n <= 2147483647)%Z -> all_sequences [true; false] n L ->
  rsum (map (fun l => exp (bb_score_data (N:=NumR lg) sh (bb_stat l))) L) = 1.
Proof.
  intros Ha Hb Hn HL. apply (sequences_total [true; false] _ ) with (n := n).
  - repeat constructor; cbn; intuition discriminate.
  - change (bb_stat []) with (bb_init sh). rewrite bb_sd_empty. apply exp_0.
  - exact HL.
  - intros l Hl I. cbn [map rsum].
    pose proof (bb_step lg Hlg sh l true Ha Hb) as E1. pose proof (bb_step lg Hlg sh l false Ha Hb) as E2.
    pose proof (bb_norm lg sh (bb_stat l) Ha Hb) as En. rewrite E1, E2 in En.
    replace (bb_score_data (N:=NumR lg) sh (bb_stat (true :: l))) with
      (bb_score_data (N:=NumR lg) sh (bb_stat l) + (bb_score_data (N:=NumR lg) sh (bb_stat (true :: l)) - bb_score_data (N:=NumR lg) sh (bb_stat l))) by lra.
    replace (bb_score_data (N:=NumR lg) sh (bb_stat (false :: l))) with
      (bb_score_data (N:=NumR lg) sh (bb_stat l) + (bb_score_data (N:=NumR lg) sh (bb_stat (false :: l)) - bb_score_data (N:=NumR lg) sh (bb_stat l))) by lra.
    rewrite !exp_plus. specialize (En ltac:(cbn; lia) ltac:(cbn; lia)).
    rewrite Rplus_0_r, <- Rmult_plus_distr_l, En. lra.
Qed.

Lemma sumf_rsum f n : sumf f n = rsum (map f (seq 0 n)).
Proof. symmetry. apply rsum_seq. Qed.
Lemma dd_total lg (Hlg : lgamma_like lg) (dl : nat) (sh : dd_shared R) n L : (0 < dd_dim sh)%nat ->
  List.Forall (fun a => 0 < a) (dd_alphas sh) -> (Z.of_nat n <= 2147483647)%Z ->
  all_sequences (map Z.of_nat (seq 0 (dd_dim sh))) n L ->
  rsum (map (fun l => exp (dd_sd lg (dd_alphas sh) (dd_stat (dd_dim sh) l))) L) = 1.
Proof.
  intros Hd Ha Hn HL. apply (sequences_total (map Z.of_nat (seq 0 (dd_dim sh))) _) with (n := n).
  - apply FinFun.Injective_map_NoDup; [|apply seq_NoDup]. intros x y. lia.
  - pose proof (dd_sd_empty lg sh) as E. rewrite dd_score_data_eq in E by (cbn; apply repeat_length).
    change (c_init (DD R) sh) with (dd_init sh) in E. pose proof (dd_init_stat sh) as I. cbn [c_init DD] in I. rewrite I in E.
    injection E as E. rewrite E. apply exp_0.
  - exact HL.
  - intros l Hl I.
    assert (Hin : in_dim (dd_dim sh) l).
    { split; [unfold short; lia|]. apply List.Forall_forall. intros v Hv. apply I, in_map_iff in Hv as (i & <- & Hi). apply in_seq in Hi. lia. }
    destruct (dd_norm lg dl sh (dd_stat (dd_dim sh) l)) as (f & E & S); auto.
    + cbn. apply tally_length.
    + cbn. apply tally_nonneg.
    + rewrite sumf_rsum in S. rewrite map_map.
      rewrite (map_ext_in _ (fun v => exp (dd_sd lg (dd_alphas sh) (dd_stat (dd_dim sh) l)) * exp (f v))).
      * rewrite rsum_scal, S. lra.
      * intros v Hv. apply in_seq in Hv. specialize (E v ltac:(lia)). rewrite (dd_step lg Hlg) in E; [|split|exact Ha].
        -- injection E as E. rewrite <- exp_plus. f_equal. lra.
        -- unfold short. cbn [length]. lia.
        -- constructor; [lia|apply Hin].
Qed.
