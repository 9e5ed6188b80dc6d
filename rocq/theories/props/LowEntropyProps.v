(** Property C97: the low-entropy joint score is the logarithm of a probability on partitions. *)
From Coq Require Import List ZArith Reals Lra Lia.
From Verif.model Require Import Base Num NumR Sampler LowEntropyTable.
From Verif.spec Require Import PartitionSpec LabelSpec LawSpec LowEntropySpec.
From Verif.proof Require Import PYLaw LowEntropyNormal LowEntropyLarge LowEntropySub.
Import ListNotations.
Local Open Scope R_scope.

(** C97: for a dataset of fewer than 48 values, score_counts of every partition of it is within
    1.5e-5 of the logarithm of its share of the total weight, where a partition weighs the product
    of c^c over its block sizes c, and exp(score_counts) sums to 1 within 2e-5.  [table] is the
    table of decimals as written or rounded to float. *)
Theorem C97_low_entropy_law_partial : forall lg dl table n L, table_of le_digits table -> (n < 48)%nat -> enumerates L n ->
  exists f, (forall a, In a L -> le_score_counts (N := NumR lg) dl table (Z.of_nat n) (block_sizes a) = Ok (f a) /\
      Rabs (f a - ln (low_entropy_weight (block_sizes a) / rsum (map (fun b => low_entropy_weight (block_sizes b)) L))) <= 15 / 1000000) /\
    Rabs (rsum (map (fun a => exp (f a)) L) - 1) <= 2 / 100000.
Proof. exact low_entropy_law. Qed.
Print Assumptions C97_low_entropy_law_partial.

(** Without the bound on n the score is no logarithm of a probability: over the partitions of a
    dataset of 60 values exp(score_counts) sums to more than 1.01. *)
Theorem C97_low_entropy_normalised_refuted : exists n L, enumerates L n /\
  forall lg dl table, exists f,
    (forall a, In a L -> le_score_counts (N := NumR lg) dl table (Z.of_nat n) (block_sizes a) = Ok (f a)) /\
    101 / 100 <= rsum (map (fun a => exp (f a)) L).
Proof.
  exists 60%nat, (all_labels 60). assert (E : enumerates (all_labels 60) 60) by (split; [apply all_labels_nodup|apply all_labels_in]).
  split; [exact E|]. intros lg dl table. exact (low_entropy_60 lg dl table _ E).
Qed.
Print Assumptions C97_low_entropy_normalised_refuted.

(** Nor is it one for a sample smaller than the dataset: over the two partitions of two values out of
    three exp(score_counts) sums to 1.005. *)
Theorem C97_low_entropy_sample_refuted : forall lg dl table, table_of le_digits table ->
  exists s t, le_score_counts (N := NumR lg) dl table 3 (block_sizes [0; 0]%Z) = Ok s /\
    le_score_counts (N := NumR lg) dl table 3 (block_sizes [0; 1]%Z) = Ok t /\ 1.004 <= exp s + exp t <= 1.006.
Proof. exact low_entropy_sub. Qed.
Print Assumptions C97_low_entropy_sample_refuted.

(** The table of exact decimals; the five partitions of three values weigh 27, 4, 4, 4 and 1. *)
Example C97_nonvacuous : table_of le_digits (map (fun d => IZR d / 100000000) le_digits) /\
  (exists L, enumerates L 3 /\ In [0; 1; 0]%Z L) /\
  map low_entropy_weight (map block_sizes [[0;0;0];[0;0;1];[0;1;0];[0;1;1];[0;1;2]]%Z) = [27; 4; 4; 4; 1].
Proof.
  split; [|split].
  - unfold table_of. assert (H : List.Forall (fun d => 0 <= d)%Z le_digits).
    { apply List.Forall_forall. intros d Hd. pose proof (proj1 (forallb_forall _ _) digits_range d Hd) as K.
      apply andb_prop in K as [K _]. now apply Z.leb_le in K. }
    induction H as [|d ds Hd _ IH]; cbn [map]; constructor; [|exact IH].
    rewrite Rminus_eq_0, Rabs_R0. apply IZR_le in Hd. apply Rmult_le_pos; [lra|]. left. apply Rinv_0_lt_compat. lra.
  - exists (all_labels 3). split; [split; [apply all_labels_nodup|apply all_labels_in]|]. apply all_labels_in. split; [reflexivity|].
    vm_compute. intuition discriminate.
  - rewrite (map_ext _ _ weight_z). reflexivity.
Qed.
