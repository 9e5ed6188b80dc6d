(** The client code that runs a history with nested merges on the groups of a component
    (include/distributions/models/*.hpp, struct Group; as distributions/tests/test_models.py
    does through the Python bindings). *)
From Verif.model Require Import Base Component.
From Verif.spec Require Import FlavorSpec.

Section Run.
  Variables (C : component) (dl : nat) (sh : shared_t C).

  (** One call on a group, models/*.hpp; the source of a merge is a group initialised and run
      through its own history. *)
  Fixpoint hrun1 (g : group_t C) (o : hop (value_t C)) : outcome (group_t C) :=
    match o with
    | HAdd v => c_add C dl sh g v
    | HRem v => c_rem C dl sh g v
    | HRep v n => c_rep C dl sh g v n
    | HMerge src =>
        let* h := (fix go (g : group_t C) (l : list (hop (value_t C))) : outcome (group_t C) :=
                     match l with [] => Ok g | o :: t => let* g' := hrun1 g o in go g' t end)
                  (c_init C sh) src in
        c_merge C dl sh g h
    end.
  (** A history of calls, models/*.hpp *)
  Fixpoint hruns (g : group_t C) (l : list (hop (value_t C))) : outcome (group_t C) :=
    match l with [] => Ok g | o :: t => let* g' := hrun1 g o in hruns g' t end.
  (** A history from a new group, models/*.hpp *)
  Definition hrun (l : list (hop (value_t C))) : outcome (group_t C) := hruns (c_init C sh) l.
End Run.
