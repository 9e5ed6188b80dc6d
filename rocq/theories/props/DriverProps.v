(** Properties C01, C02, C03, C54 of the clustering driver. *)
From Verif.model Require Import Base Driver DriverRun.
From Verif.spec Require Import DriverSpec.
From Verif.proof Require Import DriverProof.
From stdpp Require Import gmap.

(** C01. Whatever legal history runs, no call fails or is undefined, the counts are
    those of the history, sample_size is their sum, and that is the initial total
    plus the net number of values added. *)
Theorem C01_driver_counts_exact : forall dl cs ops sizes outs,
  sizes_ok cs -> dhistory cs ops sizes outs ->
  exists d0 d, driver_init dl cs = Ok d0 /\ drun dl d0 ops = Ok (d, outs) /\
    counts d = sizes /\ sample_size d = sum_sizes sizes /\
    (sum_sizes sizes = sum_sizes cs + net ops)%Z.
Proof. exact counts_exact. Qed.
Print Assumptions C01_driver_counts_exact.

(** A history with every kind of call: fill an empty group, grow it, shrink it, empty
    an inner group (the last one moves), empty the last group. *)
Definition ex_ops := [DAdd 0 2; DAdd 2 5; DRem 2 1; DRem 0 2; DAdd 0 7; DRem 0 7]%Z.
Example C01_nonvacuous : exists sizes outs,
  sizes_ok [0; 3]%Z /\ dhistory [0; 3]%Z ex_ops sizes outs /\ sizes = [0; 3; 4]%Z
  /\ outs = [true; true; false; true; true; true].
Proof.
  do 2 eexists. split; [|split; [|split; reflexivity]].
  - repeat split; [repeat constructor; lia|left; reflexivity].
  - unfold ex_ops.
    eapply dh_cons; [apply (add_to_empty [] [3%Z]); lia|cbn; lia|cbn].
    eapply dh_cons; [apply (add_to_empty [2%Z;3%Z] []); lia|cbn; lia|cbn].
    eapply dh_cons; [apply (rem_some [2%Z;3%Z] 5 [0%Z]); lia|cbn; lia|cbn].
    eapply dh_cons; [apply (rem_all_inner [] 2 [3%Z;4%Z] 0%Z); lia|cbn; lia|cbn].
    eapply dh_cons; [apply (add_to_empty [] [3%Z;4%Z]); lia|cbn; lia|cbn].
    eapply dh_cons; [apply (rem_all_inner [] 7 [3%Z;4%Z] 0%Z); lia|cbn; lia|cbn].
    constructor.
Qed.

Example C01_run : exists d0 d,
  driver_init 0 [0; 3]%Z = Ok d0 /\ drun 0 d0 ex_ops = Ok (d, [true; true; false; true; true; true]) /\
  counts d = [0; 3; 4]%Z /\ sample_size d = 7%Z /\ elements (empties d) = [0].
Proof. do 2 eexists. split; [reflexivity|]. split; [vm_compute; reflexivity|]. vm_compute. auto. Qed.

(** C02. The reported empty ids are exactly the positions holding zero, their number
    never changes and is positive. *)
Theorem C02_empty_groups_exact_and_constant : forall dl cs d0 ops sizes outs d,
  sizes_ok cs -> driver_init dl cs = Ok d0 ->
  dhistory cs ops sizes outs -> drun dl d0 ops = Ok (d, outs) ->
  (forall i, i ∈ empties d <-> nth_error (counts d) i = Some 0%Z) /\
  size (empties d) = num_empty cs /\ 0 < size (empties d).
Proof. exact empties_exact. Qed.
Print Assumptions C02_empty_groups_exact_and_constant.

(** C03, add_value: returned flag and frame. *)
Theorem C03_add_value_frame : forall dl d g c n,
  driver_reachable dl d -> nth_error (counts d) g = Some c -> (0 < n)%Z ->
  (sum_sizes (counts d) + n < 2 ^ 31)%Z ->
  exists d' b, driver_add dl d g n = Ok (d', b) /\ (b = true <-> c = 0%Z) /\
    nth_error (counts d') g = Some (c + n)%Z /\
    (forall i, i <> g -> i < length (counts d) -> nth_error (counts d') i = nth_error (counts d) i) /\
    (c <> 0%Z -> length (counts d') = length (counts d)) /\
    (c = 0%Z -> length (counts d') = S (length (counts d)) /\
                nth_error (counts d') (length (counts d)) = Some 0%Z).
Proof. exact add_frame. Qed.
Print Assumptions C03_add_value_frame.

(** C03, remove_value: returned flag and frame; an emptied group disappears and the
    last group takes its id. *)
Theorem C03_remove_value_frame : forall dl d g c n,
  driver_reachable dl d -> nth_error (counts d) g = Some c -> (0 < n <= c)%Z ->
  exists d' b, driver_remove dl d g n = Ok (d', b) /\ (b = true <-> n = c) /\
    (forall i, i <> g -> i < length (counts d') -> nth_error (counts d') i = nth_error (counts d) i) /\
    (n < c -> length (counts d') = length (counts d) /\
              nth_error (counts d') g = Some (c - n))%Z /\
    (n = c -> S (length (counts d')) = length (counts d) /\
              (g < length (counts d') ->
               nth_error (counts d') g = nth_error (counts d) (length (counts d) - 1))).
Proof. exact remove_frame. Qed.
Print Assumptions C03_remove_value_frame.

(** C54. Illegal calls are detected at debug level 2 and above ... *)
Theorem C54_illegal_add_rejected : forall dl d g n, 2 <= dl ->
  (g >= length (counts d) \/ n = 0%Z) -> driver_add dl d g n = Fail.
Proof. exact illegal_add_rejected. Qed.
Print Assumptions C54_illegal_add_rejected.

Theorem C54_illegal_remove_rejected : forall dl d g n, 2 <= dl ->
  (g >= length (counts d) \/ n = 0%Z \/
   exists c, nth_error (counts d) g = Some c /\ (c = 0 \/ c < n)%Z) ->
  driver_remove dl d g n = Fail.
Proof. exact illegal_remove_rejected. Qed.
Print Assumptions C54_illegal_remove_rejected.

(** ... but not in a release build: adding zero values to an empty group is accepted,
    and the group still holds nothing although it is no longer reported empty. *)
Theorem C54_release_build_detects_zero_add_refuted :
  exists d0 d, driver_init 0 [3; 0]%Z = Ok d0 /\ driver_add 0 d0 1 0 = Ok (d, true) /\
    nth_error (counts d) 1 = Some 0%Z /\ 1 ∉ empties d.
Proof.
  do 2 eexists. split; [vm_compute; reflexivity|]. split; [vm_compute; reflexivity|].
  split; [reflexivity|].
  apply (bool_decide_unpack _). vm_compute. exact I.
Qed.
Print Assumptions C54_release_build_detects_zero_add_refuted.

Example C03_nonvacuous : exists d, driver_reachable 2 d /\ counts d = [5; 3; 0]%Z.
Proof.
  eexists. split.
  - exists [0; 3]%Z. do 4 eexists. split; [|split; [|split]].
    + repeat split; [repeat constructor; lia|left; reflexivity].
    + vm_compute. reflexivity.
    + eapply dh_cons; [apply (add_to_empty [] [3%Z] 5); lia|cbn; lia|constructor].
    + vm_compute. reflexivity.
  - reflexivity.
Qed.
