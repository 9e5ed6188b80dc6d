(** Properties C12 and C13 of the id tracker. *)
From Verif.model Require Import Base IdTracker TrackerRun.
From Verif.spec Require Import TrackerSpec.
From Verif.proof Require Import TrackerProof.
From stdpp Require Import gmap.
Local Open Scope Z_scope.

(** C12. After every legal history creating at most 2^32 groups, the live ids are those
    of the specification ([tsteps]), distinct, and the two directions are inverse. *)
Theorem C12_tracker_bijection : forall dl k ops,
  legal (Z.of_nat k) ops -> Z.of_nat k + adds ops <= 2 ^ 32 ->
  exists t ids, trun dl (tracker_init k) ops = Ok t /\
    tsteps (first_ids k, Z.of_nat k) ops (ids, Z.of_nat k + adds ops) /\
    packed_size t = Z.of_nat (length ids) /\ global_size t = Z.of_nat k + adds ops /\
    NoDup ids /\
    (forall p g, 0 <= p -> nth_error ids (Z.to_nat p) = Some g ->
       packed_to_global dl t p = Ok g /\ global_to_packed dl t g = Ok p) /\
    (forall g, ~ In g ids -> (1 <= dl)%nat -> global_to_packed dl t g = Fail).
Proof. exact tracker_bijection. Qed.
Print Assumptions C12_tracker_bijection.

(** C12. add_group keeps all live ids and adds one that was not live at any earlier
    moment of the history. *)
Theorem C12_new_id_is_fresh : forall dl k ops0 ops1 t,
  legal (Z.of_nat k) (ops0 ++ ops1) -> Z.of_nat k + adds (ops0 ++ ops1) < 2 ^ 32 ->
  trun dl (tracker_init k) (ops0 ++ ops1) = Ok t ->
  exists g, (forall h, live dl (tracker_add_group t) h <-> live dl t h \/ h = g) /\
    packed_to_global dl (tracker_add_group t) (packed_size t) = Ok g /\
    (forall t0, trun dl (tracker_init k) ops0 = Ok t0 -> ~ live dl t0 g).
Proof. exact tracker_add_fresh. Qed.
Print Assumptions C12_new_id_is_fresh.

(** C12. remove_group(p) retires exactly the id that p stood for. *)
Theorem C12_remove_retires_exactly_one_id : forall dl k ops t p,
  legal (Z.of_nat k) (ops ++ [TRem p]) -> Z.of_nat k + adds ops <= 2 ^ 32 ->
  trun dl (tracker_init k) ops = Ok t ->
  exists g t', packed_to_global dl t p = Ok g /\ tracker_remove_group dl t p = Ok t' /\
    forall h, live dl t' h <-> live dl t h /\ h <> g.
Proof. exact tracker_remove_exact. Qed.
Print Assumptions C12_remove_retires_exactly_one_id.

Example C12_case : exists t, legal 3 [TRem 0; TAdd; TRem 1; TAdd] /\
  trun 1 (tracker_init 3) [TRem 0; TAdd; TRem 1; TAdd] = Ok t /\ p2g t = [2; 3; 4] /\
  global_to_packed 1 t 3 = Ok 1 /\ global_to_packed 1 t 0 = Fail.
Proof. eexists. split; [simpl; lia|]. split; [vm_compute; reflexivity|]. vm_compute. auto. Qed.

(** C13 is false: after 2^32 creations two live groups share the global id 0. *)
Theorem C13_ids_unique_forever_refuted : forall dl,
  exists ops t, legal 1 ops /\ trun dl (tracker_init 1) ops = Ok t /\
    packed_size t = 2 /\
    packed_to_global dl t 0 = Ok 0 /\ packed_to_global dl t 1 = Ok 0.
Proof. exact ids_collide. Qed.
Print Assumptions C13_ids_unique_forever_refuted.
