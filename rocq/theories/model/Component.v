(** The interface every component model offers for its groups
    (include/distributions/models/*.hpp, struct Group), as a record of functions, and the
    client code that runs a history of calls.  Random generators are not passed: no
    group update draws from them. *)
From Verif.model Require Import Base.
From Verif.spec Require Import GroupSpec.

(** struct Group of models/*.hpp: Group::init, add_value, add_repeated_value, remove_value, merge *)
Record component := mk_component {
  shared_t : Type;
  group_t : Type;
  value_t : Type;
  c_init : shared_t -> group_t;                                     (* Group::init *)
  c_add : nat -> shared_t -> group_t -> value_t -> outcome group_t; (* Group::add_value *)
  c_rep : nat -> shared_t -> group_t -> value_t -> Z -> outcome group_t; (* Group::add_repeated_value *)
  c_rem : nat -> shared_t -> group_t -> value_t -> outcome group_t; (* Group::remove_value *)
  c_merge : nat -> shared_t -> group_t -> group_t -> outcome group_t (* Group::merge *) }.

Section Run.
  Variables (C : component) (dl : nat) (sh : shared_t C).

  (** Client code: add the values one by one (as examples/mixture/main.py and Group::add_value of models/*.hpp). *)
  Fixpoint c_adds (g : group_t C) (l : list (value_t C)) : outcome (group_t C) :=
    match l with
    | [] => Ok g
    | v :: l' => let* g' := c_add C dl sh g v in c_adds g' l'
    end.
  (** Client code: a new group filled with values (Group::init of models/*.hpp). *)
  Definition c_filled (l : list (value_t C)) : outcome (group_t C) := c_adds (c_init C sh) l.

  (** One client call on a group, models/*.hpp *)
  Definition grun1 (g : group_t C) (o : gop (value_t C)) : outcome (group_t C) :=
    match o with
    | GAdd v => c_add C dl sh g v
    | GRem v => c_rem C dl sh g v
    | GRep v n => c_rep C dl sh g v (Z.of_nat n)
    | GMerge ys => let* h := c_filled ys in c_merge C dl sh g h
    end.
  (** A history of client calls on a group, models/*.hpp *)
  Fixpoint grun (g : group_t C) (ops : list (gop (value_t C))) : outcome (group_t C) :=
    match ops with
    | [] => Ok g
    | o :: ops' => let* g' := grun1 g o in grun g' ops'
    end.

  (** Client code: score each value given the previous ones, then add it; [add] sums scores (Group::score_value of models/*.hpp). *)
  Fixpoint c_chain {F : Type} (zero : F) (add : F -> F -> F)
      (score : shared_t C -> group_t C -> value_t C -> outcome F)
      (g : group_t C) (l : list (value_t C)) : outcome F :=
    match l with
    | [] => Ok zero
    | v :: l' =>
        let* s := score sh g v in
        let* g' := c_add C dl sh g v in
        let* r := c_chain zero add score g' l' in
        Ok (add s r)
    end.
End Run.
