(** Properties C04, C05, C06, C07 of the Pitman-Yor clustering model. *)
From Coq Require Import Reals Lra Permutation.
From Verif.model Require Import Base Driver Num NumR PitmanYor PitmanYorRun.
From Verif.spec Require Import DriverSpec PartitionSpec LgammaSpec.
From Verif.proof Require Import LgammaProof PitmanYorProof PitmanYorR.
From stdpp Require Import gmap.

(** C04, in every arithmetic (bit for bit): after any legal history the cached scores are
    those of a mixture freshly initialised from the current group sizes. *)
Theorem C04_cached_scores_fresh : forall (F : Type) (N : Num F) dl (m : py F) old old' cs ops sizes outs,
  sizes_ok cs -> dhistory cs ops sizes outs ->
  exists c0 c cf, py_init dl m old cs = Ok c0 /\ pyrun dl m c0 ops = Ok (c, outs) /\
    counts (cdriver c) = sizes /\ py_init dl m old' sizes = Ok cf /\
    (exists scores, py_score_value dl m c (length sizes) = Ok scores /\
      py_score_value dl m cf (length sizes) = Ok scores /\ length scores = length sizes).
Proof. intros F N. exact (@py_cache_fresh F N). Qed.
Print Assumptions C04_cached_scores_fresh.

Local Open Scope R_scope.

(** C04, in exact arithmetic: the score of every group is score_add_value of its size ... *)
Theorem C04_cached_scores_are_direct : forall lg dl (m : py R) old cs ops sizes outs,
  0 < alpha m /\ 0 <= disc m < 1 -> sizes_ok cs -> dhistory cs ops sizes outs ->
  exists c0 c, py_init (N := NumR lg) dl m old cs = Ok c0 /\
    pyrun (N := NumR lg) dl m c0 ops = Ok (c, outs) /\
    py_score_value (N := NumR lg) dl m c (length sizes) =
    Ok (map (fun n => py_score_add (N := NumR lg) m n (Z.of_nat (length sizes - num_empty sizes))
                        (sum_sizes sizes) (Z.of_nat (num_empty sizes))) sizes).
Proof. exact py_scores_are_predictive. Qed.
Print Assumptions C04_cached_scores_are_direct.

(** ... which is the logarithm of the two-parameter restaurant rule ... *)
Theorem C04_score_add_is_restaurant_rule : forall lg (m : py R) c K n e,
  0 < alpha m /\ 0 <= disc m < 1 -> (0 <= c)%Z -> (0 <= n)%Z -> (0 <= K)%Z -> (0 < e)%Z ->
  exp (py_score_add (N := NumR lg) m c K n e) =
  py_rule (alpha m) (disc m) (IZR n) (IZR K) (IZR e) (IZR c).
Proof. exact score_add_is_rule. Qed.
Print Assumptions C04_score_add_is_restaurant_rule.

(** ... and the uncached driver computes the same. *)
Theorem C04_cached_equals_uncached : forall lg dl (m : py R) old cs ops sizes outs,
  0 < alpha m /\ 0 <= disc m < 1 -> sizes_ok cs -> dhistory cs ops sizes outs ->
  exists c0 c scores, py_init (N := NumR lg) dl m old cs = Ok c0 /\
    pyrun (N := NumR lg) dl m c0 ops = Ok (c, outs) /\
    py_score_value (N := NumR lg) dl m c (length sizes) = Ok scores /\
    py_driver_score_value (N := NumR lg) dl m (cdriver c) (length sizes) = Ok scores.
Proof. exact py_cached_eq_uncached. Qed.
Print Assumptions C04_cached_equals_uncached.

(** Hypotheses met by a history that fills, empties and moves groups. *)
Definition ex_py : py R := mk_py (/ 2) (/ 4).
Definition ex_py_ops := [DAdd 0 2; DAdd 2 5; DRem 2 1; DRem 0 2; DAdd 0 7]%Z.
Example C04_nonvacuous : exists sizes outs, (0 < alpha ex_py /\ 0 <= disc ex_py < 1) /\
  sizes_ok [0; 3]%Z /\ dhistory [0; 3]%Z ex_py_ops sizes outs /\ sizes = [7; 3; 4; 0]%Z.
Proof.
  do 2 eexists. split; [simpl; lra|]. split; [|split; [|reflexivity]].
  - repeat split; [repeat constructor; lia|left; reflexivity].
  - unfold ex_py_ops.
    eapply dh_cons; [apply (add_to_empty [] [3%Z]); lia|cbn; lia|cbn].
    eapply dh_cons; [apply (add_to_empty [2%Z;3%Z] []); lia|cbn; lia|cbn].
    eapply dh_cons; [apply (rem_some [2%Z;3%Z] 5 [0%Z]); lia|cbn; lia|cbn].
    eapply dh_cons; [apply (rem_all_inner [] 2 [3%Z;4%Z] 0%Z); lia|cbn; lia|cbn].
    eapply dh_cons; [apply (add_to_empty [] [3%Z;4%Z]); lia|cbn; lia|cbn].
    constructor.
Qed.

(** C05. *)
Theorem C05_predictive_normalised : forall lg dl (m : py R) old cs ops sizes outs,
  0 < alpha m /\ 0 <= disc m < 1 -> sizes_ok cs -> dhistory cs ops sizes outs ->
  exists c0 c scores, py_init (N := NumR lg) dl m old cs = Ok c0 /\
    pyrun (N := NumR lg) dl m c0 ops = Ok (c, outs) /\
    py_score_value (N := NumR lg) dl m c (length sizes) = Ok scores /\
    rsum (map exp scores) = 1 /\
    (forall s, In s scores -> 0 < exp s <= 1 /\ ((2 <= length sizes)%nat -> exp s < 1)).
Proof. exact py_normalised. Qed.
Print Assumptions C05_predictive_normalised.

(** C06: the joint score is the sum of the sequential scores, in whatever order the values are
    seated ([rest] is any sequence of group names below k, i.e. any insertion order). *)
Theorem C06_joint_score_is_any_seating : forall lg, lgamma_like lg -> forall (m : py R) k rest,
  0 < alpha m /\ 0 <= disc m < 1 -> Forall (fun g => g < k)%nat rest ->
  py_score_counts (N := NumR lg) m (group_sizes k rest) =
  seating_score (fun c K n => py_score_add (N := NumR lg) m c K n 1) [] rest.
Proof. exact score_counts_is_seating. Qed.
Print Assumptions C06_joint_score_is_any_seating.

(** C06: neither the order of the groups nor the empty groups matter. *)
Theorem C06_joint_score_exchangeable : forall lg, lgamma_like lg -> forall (m : py R) l1 l2,
  0 < alpha m /\ 0 <= disc m < 1 ->
  Forall (fun c => 0 <= c)%Z l1 -> Forall (fun c => 0 <= c)%Z l2 ->
  Permutation (List.filter (fun c => negb (c =? 0)%Z) l1) (List.filter (fun c => negb (c =? 0)%Z) l2) ->
  py_score_counts (N := NumR lg) m l1 = py_score_counts (N := NumR lg) m l2.
Proof. exact score_counts_invariant. Qed.
Print Assumptions C06_joint_score_exchangeable.

(** A function with the Gamma recurrence exists. *)
Example lgamma_like_inhabited : exists lg, lgamma_like lg.
Proof. exists lg_witness. exact lg_witness_ok. Qed.

Example C06_nonvacuous :
  Forall (fun g => g < 4)%nat [2; 0; 2; 3; 2]%nat /\
  group_sizes 4 [2; 0; 2; 3; 2]%nat = [1; 0; 3; 1]%Z /\
  Permutation (List.filter (fun c => negb (c =? 0)%Z) [1; 0; 3; 1]%Z)
              (List.filter (fun c => negb (c =? 0)%Z) [3; 1; 1; 0; 0]%Z).
Proof.
  split; [repeat constructor|]. split; [reflexivity|]. simpl.
  apply Permutation_sym. apply (Permutation_cons_app [1%Z] [1%Z] 3%Z). reflexivity.
Qed.

(** C07, in every arithmetic: removing a value scores the negative of adding it.  [l] and
    [l'] are the group sizes before and after adding one value to group g. *)
Theorem C07_score_remove_reverses_add : forall (F : Type) (N : Num F) (m : py F) l g l' b c,
  Forall (fun c => 0 <= c)%Z l -> dstep l (DAdd g 1) l' b -> nth_error l g = Some c ->
  py_score_remove m (c + 1) (Z.of_nat (length l' - num_empty l'))%Z (sum_sizes l') (Z.of_nat (num_empty l')) =
  nneg (py_score_add m c (Z.of_nat (length l - num_empty l))%Z (sum_sizes l) (Z.of_nat (num_empty l))).
Proof. intros F N. exact (@py_remove_inverse_add F N). Qed.
Print Assumptions C07_score_remove_reverses_add.

Example C07_nonvacuous : dstep [4; 0; 2]%Z (DAdd 1 1) [4; 1; 2; 0]%Z true.
Proof. apply (add_to_empty [4]%Z [2]%Z). lia. Qed.
