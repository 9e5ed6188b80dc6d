(** Client code of MixtureSlave (mixture.hpp:340-450): a history of its mutating calls
    with one fixed Shared, as the mixture users in the repository make them
    (the callers are the FastMixture/SmallMixture typedefs of models/*.hpp). *)
From Verif.spec Require Import SlaveSpec.
From Verif.model Require Import Base Num Component Slave.

Section Run.
  Context {C : component} {F : Type} {N : Num F}.
  Variables (S : vscorer C F) (dl : nat) (sh : shared_t C).

  (** One client call, mixture.hpp:361-398 *)
  Definition slave_run1 (s : slave S) (o : sop (value_t C)) : outcome (slave S) :=
    match o with
    | SAddGroup => slave_add_group S dl sh s
    | SRemGroup i => slave_remove_group S dl sh s i
    | SAdd i v => slave_add_value S dl sh s i v
    | SRem i v => slave_remove_value S dl sh s i v
    end.
  (** A history of client calls, mixture.hpp:361-398 *)
  Fixpoint slave_run (s : slave S) (ops : list (sop (value_t C))) : outcome (slave S) :=
    match ops with
    | [] => Ok s
    | o :: ops' => let* s' := slave_run1 s o in slave_run s' ops'
    end.
  (** MixtureSlave filled through groups(), initialised, then used (mixture.hpp:354-398). *)
  Definition slave_start (gs : list (group_t C)) (garbage : vs_t S) (ops : list (sop (value_t C))) : outcome (slave S) :=
    let* s := slave_init S dl sh (mk_slave gs garbage) in
    slave_run s ops.
End Run.
