(** Properties C08-C11, C56 and C57: samplers of cluster assignments, the low-entropy model and
    count_assignments.  Every random draw is a universally quantified argument. *)
From Coq Require Import Reals Lra Permutation.
From Verif.model Require Import Base Num NumR PitmanYor Random Sampler.
From Verif.spec Require Import LabelSpec PartitionSpec RandomSpec DriverSpec.
From Verif.proof Require Import SamplerProof.

(** C08 as stated: removing right after adding gives the opposite score.  It holds for a group that
    was not empty, while the data set is not exhausted (or checks are compiled out), in every arithmetic.
    Missing: groups that were empty, and the last value of the data set; both are refuted below. *)
Theorem C08_remove_reverses_add_partial : forall (F : Type) (N : Num F) dl dataset gs k n e,
  (1 <= gs)%Z -> (0 <= k <= n)%Z -> ((n + 1 < dataset)%Z \/ dl = O /\ (n < dataset)%Z) -> (0 < e)%Z ->
  exists s : F, le_score_add dl dataset gs k n e = Ok s /\
    le_score_remove dl dataset (gs + 1) k (n + 1) e = Ok (nneg s).
Proof. intros F N. exact (@le_remove_partial F N). Qed.
Print Assumptions C08_remove_reverses_add_partial.

(** A value added to an empty group of an empty mixture over a data set of 2 scores positive, but
    removing it scores 0, not the opposite: sample_size is not decremented. *)
Theorem C08_remove_reverses_add_refuted : forall lg dl, exists dataset s,
  le_score_add (N := NumR lg) dl dataset 0 0 0 1 = Ok s /\
  (0 < s)%R /\ le_score_remove (N := NumR lg) dl dataset 1 1 1 1 = Ok 0%R.
Proof. intros lg dl. exists 2%Z. exact (le_remove_refuted lg dl). Qed.
Print Assumptions C08_remove_reverses_add_refuted.

(** With checks on, the score of removing any value of a complete data set aborts. *)
Theorem C08_remove_from_complete_dataset_refuted : forall (F : Type) (N : Num F) dl gs k n e, 1 <= dl -> (0 <= n)%Z ->
  le_score_remove (F := F) dl (n + 1) (gs + 1) k (n + 1) e = Fail.
Proof. intros F N. exact (@le_remove_aborts F N). Qed.
Print Assumptions C08_remove_from_complete_dataset_refuted.
Example C08_nonvacuous : exists gs k n e dataset : Z,
  ((1 <= gs) /\ (0 <= k <= n) /\ (n + 1 < dataset) /\ (0 < e))%Z /\ (10000 < gs)%Z.
Proof. exists 10001%Z, 3%Z, 20000%Z, 1%Z, 30000%Z. lia. Qed.

(** C09, in every arithmetic in which size < size + 1 (the source asserts it). *)
Theorem C09_assignments_valid : forall (F : Type) (N : Num F) (m : py F) size u,
  nltb (nof (Z.of_nat size)) (nadd (nof (Z.of_nat size)) (nof 1)) = true ->
  exists a, py_sample_assignments m size u = Ok a /\ length a = size /\ labels_from 0 a.
Proof. intros F N. exact (@py_sample_labels F N). Qed.
Print Assumptions C09_assignments_valid.

Local Open Scope R_scope.

(** C09, in exact arithmetic: value number i is drawn by inverse CDF, with its own uniform draw, from
    the predictive weights of the labels before it, which sum to i + alpha. *)
Theorem C09_assignments_follow_restaurant_rule : forall lg (m : py R) size u,
  0 < alpha m /\ 0 <= disc m < 1 -> (forall i, 0 <= u i < 1) ->
  exists a, py_sample_assignments (N := NumR lg) m size u = Ok a /\ length a = size /\ labels_from 0 a /\
    forall p x q, a = p ++ x :: q -> p <> [] ->
      let w := py_weights (alpha m) (disc m) p in
      let total := IZR (Z.of_nat (length p)) + alpha m in
      rsum w = total /\
      (x <> 0%Z -> cum w (Z.to_nat x) < total * u (length p)) /\
      total * u (length p) <= cum w (S (Z.to_nat x)).
Proof.
  intros lg m size u Hm Hu. destruct (py_sample_R lg m Hm size u Hu) as (a & E & Hl & HL & HC & HS).
  exists a. split; [exact E|]. split; [exact Hl|]. split; [exact HL|]. intros p x q Ea Hp. cbv zeta.
  split; [exact (HS p (x :: q) Ea)|exact (HC p x q Ea Hp)].
Qed.
Print Assumptions C09_assignments_follow_restaurant_rule.
Example C09_nonvacuous : exists (m : py R) (u : nat -> R) p,
  (0 < alpha m /\ 0 <= disc m < 1) /\ (forall i, 0 <= u i < 1) /\ p <> [] /\ labels_from 0 p /\
  py_weights (alpha m) (disc m) p = [3 - / 4; 1 - / 4; / 2 + / 4 * 2].
Proof.
  exists (mk_py (/ 2) (/ 4)), (fun _ => / 2), [0; 0; 1; 0]%Z.
  split; [simpl; lra|]. split; [intros; lra|]. split; [discriminate|]. split; [simpl; lia|reflexivity].
Qed.

Local Close Scope R_scope.

(** C10, in every arithmetic and at every debug level: each label is the one sample_from_likelihoods picks
    from exp(score_add_value) of the current groups followed by one empty group. *)
Theorem C10_assignments_valid : forall (F : Type) (N : Num F) dl dataset n u, (Z.of_nat n <= dataset < 2 ^ 31)%Z ->
  exists a, le_sample_assignments dl dataset n u = Ok a /\ length a = n /\ labels_from 0 a /\
    forall p x q, a = p ++ x :: q -> exists weights,
      Forall2 (fun c w => exists s, le_score_add dl dataset c 0 (Z.of_nat (length p)) 1 = Ok s /\ w = nexp s)
        (label_sizes (next_label 0 p) p ++ [0%Z]) weights /\
      sample_from_likelihoods_sum (u (length p)) weights = Ok (Z.to_nat x).
Proof. intros F N. exact (@le_sample_ok F N). Qed.
Print Assumptions C10_assignments_valid.
Theorem C10_too_many_is_an_error : forall (F : Type) (N : Num F) dl dataset n u, (dataset < Z.of_nat n)%Z ->
  le_sample_assignments (F := F) dl dataset n u = Fail.
Proof. intros F N. exact (@le_sample_too_big F N). Qed.
Print Assumptions C10_too_many_is_an_error.
Example C10_nonvacuous : (Z.of_nat 5 <= 7 < 2 ^ 31)%Z /\ labels_from 0 [0; 0; 1; 2; 1]%Z /\
  label_sizes (next_label 0 [0; 0; 1; 2; 1]%Z) [0; 0; 1; 2; 1]%Z = [2; 2; 1]%Z.
Proof. repeat split; try reflexivity; simpl; lia. Qed.

(** C11: [l] lists the (key, group) pairs of the map in iteration order.  At debug level 2 and above
    the code insists that ids have no gaps. *)
Theorem C11_counts_exact : forall dl l, Forall (fun p => 0 <= snd p)%Z l -> (Z.of_nat (length l) < 2 ^ 31)%Z ->
  dl < 2 \/ (forall g h, In h l -> (Z.of_nat g < snd h)%Z -> exists p, In p l /\ snd p = Z.of_nat g) ->
  exists cs, count_assignments dl l = Ok cs /\
    (forall g c, nth_error cs g = Some c -> c = Z.of_nat (group_occ g l)) /\
    (forall p, In p l -> (snd p < Z.of_nat (length cs))%Z) /\
    (l = [] -> cs = []) /\ (l <> [] -> exists p, In p l /\ snd p = (Z.of_nat (length cs) - 1)%Z) /\
    sum_sizes cs = Z.of_nat (length l).
Proof. exact count_assignments_ok. Qed.
Print Assumptions C11_counts_exact.
Theorem C11_independent_of_hash_order : forall dl l l', Permutation l l' -> Forall (fun p => 0 <= snd p)%Z l ->
  (Z.of_nat (length l) < 2 ^ 31)%Z -> count_assignments dl l = count_assignments dl l'.
Proof. exact count_assignments_perm. Qed.
Print Assumptions C11_independent_of_hash_order.
Theorem C11_gap_reported : forall dl l g h, Forall (fun p => 0 <= snd p)%Z l -> (Z.of_nat (length l) < 2 ^ 31)%Z ->
  2 <= dl -> In h l -> (Z.of_nat g < snd h)%Z -> (forall p, In p l -> snd p <> Z.of_nat g) ->
  count_assignments dl l = Fail.
Proof. exact count_assignments_gap. Qed.
Print Assumptions C11_gap_reported.
Theorem C11_negative_reported : forall dl l1 k g l2, (g < 0)%Z -> Forall (fun p => 0 <= snd p)%Z l1 ->
  (Z.of_nat (length l1) < 2 ^ 31)%Z -> count_assignments dl (l1 ++ (k, g) :: l2) = Fail.
Proof. exact count_assignments_negative. Qed.
Print Assumptions C11_negative_reported.
Example C11_nonvacuous : count_assignments 3 [(10, 2); (7, 0); (8, 2); (1, 1)]%Z = Ok [1; 1; 2]%Z /\
  count_assignments 0 [(10, 3); (7, 0)]%Z = Ok [1; 0; 0; 1]%Z /\ count_assignments 2 [(10, 3); (7, 0)]%Z = Fail.
Proof. repeat split. Qed.

Local Open Scope R_scope.

(** C56: the joint score does not depend on the order of the counts ... *)
Theorem C56_order_independent : forall lg dl table dataset cs cs',
  List.Forall (fun c => 0 <= c)%Z cs -> Permutation cs cs' ->
  le_score_counts (N := NumR lg) dl table dataset cs = le_score_counts (N := NumR lg) dl table dataset cs'.
Proof. exact le_score_counts_perm. Qed.
Print Assumptions C56_order_independent.
(** ... nor on empty groups once the whole data set is assigned ... *)
Theorem C56_empty_groups_partial : forall lg dl table dataset cs,
  List.Forall (fun c => 0 <= c)%Z cs -> sum_sizes cs = dataset ->
  le_score_counts (N := NumR lg) dl table dataset (cs ++ [0%Z]) = le_score_counts (N := NumR lg) dl table dataset cs.
Proof. exact le_score_counts_empty_full. Qed.
Print Assumptions C56_empty_groups_partial.
(** ... but before that an empty group, as kept by the driver, changes it. *)
Theorem C56_empty_groups_refuted : forall lg dl table lp, nth_error table 1 = Some lp ->
  exists dataset cs s s', le_score_counts (N := NumR lg) dl table dataset cs = Ok s /\
    le_score_counts (N := NumR lg) dl table dataset (cs ++ [0%Z]) = Ok s' /\ s <> s'.
Proof.
  intros lg dl table lp H. destruct (le_score_counts_empty_refuted lg dl table lp H) as (s & E1 & E2).
  exists 2%Z, [1%Z], s, (s + 3 / 10 * ln 2). split; [exact E1|]. split; [exact E2|].
  assert (0 < ln 2) by (rewrite <- ln_1; apply ln_increasing; lra). lra.
Qed.
Print Assumptions C56_empty_groups_refuted.

(** C57: for the last value of the data set, score_add_value is the conditional of the joint score, exactly
    up to 10000 values per group and within 1/(c+1) beyond. *)
Theorem C57_last_value_conditional : forall lg dl table dataset cs g c lp,
  List.Forall (fun c => 1 <= c)%Z cs -> (sum_sizes cs + 1 = dataset)%Z -> (dataset <= i32_max)%Z ->
  le_log_partition (N := NumR lg) table dataset = Ok lp -> nth_error cs g = Some c ->
  exists join open a1 a0,
    le_score_counts (N := NumR lg) dl table dataset (upd cs g (c + 1)%Z) = Ok join /\
    le_score_counts (N := NumR lg) dl table dataset (cs ++ [1%Z]) = Ok open /\
    le_score_add (N := NumR lg) dl dataset c 0 (dataset - 1) 1 = Ok a1 /\
    le_score_add (N := NumR lg) dl dataset 0 0 (dataset - 1) 1 = Ok a0 /\
    ((c <= 10000)%Z -> a1 - a0 = join - open) /\
    0 <= (a1 - a0) - (join - open) <= 1 / IZR (c + 1).
Proof. exact le_last_value. Qed.
Print Assumptions C57_last_value_conditional.
Example C57_nonvacuous : forall lg, exists cs g c lp, List.Forall (fun c => 1 <= c)%Z cs /\ (sum_sizes cs + 1 = 60)%Z /\
  le_log_partition (N := NumR lg) [] 60 = Ok lp /\ nth_error cs g = Some c /\ (1 < c)%Z.
Proof.
  intro lg. exists [50; 9]%Z, 1%nat, 9%Z. eexists. split; [repeat constructor; lia|]. split; [reflexivity|].
  split; [reflexivity|]. split; [reflexivity|lia].
Qed.
