(** Properties C69, C70, C71: probability laws of whole samples. *)
From Coq Require Import List ZArith Reals Lra Lia.
From Verif.model Require Import Base Num NumR Component BB DD PitmanYor Random Sampler.
From Verif.spec Require Import GroupSpec LgammaSpec PartitionSpec LabelSpec LawSpec.
From Verif.proof Require Import BaseProof LgammaProof BBProof DDProof ScoreProof DDScore PYLaw MarginalLaw.
Import ListNotations.
Local Open Scope R_scope.

(** C69: with independent uniform draws u 0, u 1, ... sample_assignments returns the label
    sequence a exactly when the draws fall in a box inside the unit cube, and the volume of
    that box, i.e. the probability of a, is exp(score_counts) of its group sizes. *)
Theorem C69_sampler_law : forall lg, lgamma_like lg -> forall m : py R, 0 < alpha m /\ 0 <= disc m < 1 ->
  forall a, labels_from 0 a ->
  exists lo hi, (forall i, (i < length a)%nat -> 0 <= lo i <= hi i /\ hi i <= 1) /\
    (forall u, (forall i, 0 < u i < 1) ->
      (py_sample_assignments (N := NumR lg) m (length a) u = Ok a <->
       forall i, (i < length a)%nat -> lo i < u i <= hi i)) /\
    volume lo hi (length a) = exp (py_score_counts (N := NumR lg) m (label_sizes (next_label 0 a) a)).
Proof.
  intros lg Hlg m Hm a Ha. exists (blo m a), (bhi m a). split; [|split].
  - intros i Hi. now apply box_sub.
  - intros u Hu. now apply sampler_box.
  - now apply box_volume.
Qed.
Print Assumptions C69_sampler_law.

(** The label sequence 0 1 0 2 of three groups of sizes 2, 1, 1. *)
Example C69_nonvacuous : lgamma_like lg_witness /\ (0 < alpha (mk_py 1 (/ 2)) /\ 0 <= disc (mk_py 1 (/ 2)) < 1) /\
  labels_from 0 [0; 1; 0; 2]%Z /\ label_sizes (next_label 0 [0; 1; 0; 2]%Z) [0; 1; 0; 2]%Z = [2; 1; 1]%Z.
Proof. split; [exact lg_witness_ok|]. split; [cbn; lra|]. split; [|reflexivity]. vm_compute. intuition discriminate. Qed.

(** C70: exp(score_counts) is a probability distribution on the partitions of n values
    (a partition is a label sequence in order of first appearance). *)
Theorem C70_score_counts_normalised : forall lg, lgamma_like lg -> forall m : py R, 0 < alpha m /\ 0 <= disc m < 1 ->
  forall n L, enumerates L n ->
  rsum (map (fun a => exp (py_score_counts (N := NumR lg) m (label_sizes (next_label 0 a) a))) L) = 1.
Proof. intros lg Hlg m Hm n L HL. exact (total_enumerated lg Hlg m Hm L n HL). Qed.
Print Assumptions C70_score_counts_normalised.

Theorem C70_enumeration_exists : forall n, exists L, enumerates L n.
Proof. intro n. exists (all_labels n). split; [apply all_labels_nodup|apply all_labels_in]. Qed.
Print Assumptions C70_enumeration_exists.

(** The five partitions of three values. *)
Example C70_nonvacuous : enumerates [[0;0;0];[0;0;1];[0;1;0];[0;1;1];[0;1;2]]%Z 3.
Proof.
  split.
  - repeat constructor; cbn; intuition discriminate.
  - intro a. split.
    + intro H. cbn [In] in H. decompose [or] H; subst; try contradiction; (split; [reflexivity|vm_compute; intuition discriminate]).
    + intros [E H]. destruct a as [|x [|y [|z [|]]]]; try discriminate. cbn [labels_from] in H.
      destruct H as (H1 & H2 & H3 & _). assert (x = 0%Z) as -> by lia. clear E H1.
      change ((0 =? 0)%Z) with true in H2, H3; cbv iota in H2, H3. change (0 + 1)%Z with 1%Z in H2, H3.
      assert (y = 0 \/ y = 1)%Z as [-> | ->] by lia.
      * change ((0 =? 1)%Z) with false in H3; cbv iota in H3.
        assert (z = 0 \/ z = 1)%Z as [-> | ->] by lia; cbn; tauto.
      * change ((1 =? 1)%Z) with true in H3; cbv iota in H3. change (1 + 1)%Z with 2%Z in H3.
        assert (z = 0 \/ z = 1 \/ z = 2)%Z as [-> | [-> | ->]] by lia; cbn; tauto.
Qed.

(** C71: score_data is the logarithm of a probability: over all data sequences of length n,
    loaded one by one into a fresh group, exp(score_data) sums to one.  Beta-Bernoulli ... *)
Theorem C71_bb_marginal_normalised : forall lg, lgamma_like lg -> forall dl (sh : bb_shared R) n L,
  0 < bb_alpha sh -> 0 < bb_beta sh -> (Z.of_nat n <= 2147483647)%Z -> all_sequences [true; false] n L ->
  exists f, (forall l, In l L -> exists g, c_filled (BB R) dl sh l = Ok g /\ bb_score_data (N := NumR lg) sh g = f l) /\
    rsum (map (fun l => exp (f l)) L) = 1.
Proof.
  intros lg Hlg dl sh n L Ha Hb Hn HL. exists (fun l => bb_score_data (N := NumR lg) sh (bb_stat l)). split.
  - intros l Hl. exists (bb_stat l). split; [|reflexivity]. apply bb_filled. apply HL in Hl as [E _]. change (Z.of_nat (@length bool l) <= 2147483647)%Z. lia.
  - exact (bb_total lg Hlg sh n L Ha Hb Hn HL).
Qed.
Print Assumptions C71_bb_marginal_normalised.

(** ... and Dirichlet-discrete, for every number of categories. *)
Theorem C71_dd_marginal_normalised : forall lg, lgamma_like lg -> forall dl (sh : dd_shared R) n L,
  (0 < dd_dim sh)%nat -> List.Forall (fun a => 0 < a) (dd_alphas sh) -> (Z.of_nat n <= 2147483647)%Z ->
  all_sequences (map Z.of_nat (seq 0 (dd_dim sh))) n L ->
  exists f, (forall l, In l L -> exists g, c_filled (DD R) dl sh l = Ok g /\ dd_score_data (N := NumR lg) sh g = Ok (f l)) /\
    rsum (map (fun l => exp (f l)) L) = 1.
Proof.
  intros lg Hlg dl sh n L Hd Ha Hn HL.
  exists (fun l => dd_sd lg (dd_alphas sh) (dd_stat (dd_dim sh) l)). split.
  - intros l Hl. exists (dd_stat (dd_dim sh) l). apply HL in Hl as [E I]. split.
    + apply dd_filled. split; [unfold short; lia|]. apply List.Forall_forall. intros v Hv.
      apply I, in_map_iff in Hv as (i & <- & Hi). apply in_seq in Hi. lia.
    + apply dd_score_data_eq. cbn. apply tally_length.
  - exact (dd_total lg Hlg dl sh n L Hd Ha Hn HL).
Qed.
Print Assumptions C71_dd_marginal_normalised.

(** Such lists exist for every length and value set, e.g. the nine pairs over three values. *)
Theorem C71_sequences_exist : forall V (vals : list V) n, NoDup vals -> exists L, all_sequences vals n L.
Proof. intros V vals n H. exists (seqs vals n). split; [now apply seqs_nodup|apply seqs_in]. Qed.
Print Assumptions C71_sequences_exist.

Definition ex_three : dd_shared R := mk_dd_shared [1; / 2; 3].
Example C71_nonvacuous : exists L, all_sequences (map Z.of_nat (seq 0 (dd_dim ex_three))) 2 L /\
  length L = 9%nat /\ (0 < dd_dim ex_three)%nat /\
  List.Forall (fun a => 0 < a) (dd_alphas ex_three).
Proof.
  exists (seqs [0; 1; 2]%Z 2). split; [|split; [reflexivity|split; [cbn; lia|repeat constructor; lra]]].
  split; [|apply seqs_in]. apply seqs_nodup. repeat constructor; cbn; intuition discriminate.
Qed.
