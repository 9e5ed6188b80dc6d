(** Histories of one group in which the groups merged into it have histories of their own.
    No reference to the model of the code. *)
From Coq Require Import List ZArith.
Import ListNotations.

(** Calls on a group: add, remove, add n times (any n, also negative), absorb a group that was
    initialised and went through the calls [src]. *)
Inductive hop (V : Type) :=
| HAdd (v : V) | HRem (v : V) | HRep (v : V) (n : Z) | HMerge (src : list (hop V)).
Arguments HAdd {V}. Arguments HRem {V}. Arguments HRep {V}. Arguments HMerge {V}.

(** Every value named in a history satisfies [P]. *)
Fixpoint hop_all {V} (P : V -> Prop) (o : hop V) : Prop :=
  match o with
  | HAdd v | HRem v | HRep v _ => P v
  | HMerge src => (fix all l := match l with [] => True | o :: t => hop_all P o /\ all t end) src
  end.
Fixpoint all_values {V} (P : V -> Prop) (l : list (hop V)) : Prop :=
  match l with [] => True | o :: t => hop_all P o /\ all_values P t end.

(** No call of the history is a merge. *)
Definition merge_free {V} (l : list (hop V)) : Prop :=
  List.Forall (fun o => match o with HMerge _ => False | _ => True end) l.

(** How many values a group holds after a history: removals count negatively. *)
Fixpoint hop_size {V} (o : hop V) : Z :=
  match o with
  | HAdd _ => 1 | HRem _ => -1 | HRep _ n => n
  | HMerge src => (fix sum l := match l with [] => 0 | o :: t => hop_size o + sum t end) src
  end%Z.
Fixpoint history_size {V} (l : list (hop V)) : Z :=
  match l with [] => 0 | o :: t => hop_size o + history_size t end%Z.
(** No addition or merge, also in the histories of the sources, leaves a group without values. *)
Fixpoint hop_nonempty {V} (n : Z) (o : hop V) : Prop :=
  match o with
  | HRem _ => True
  | HMerge src =>
      (fix all n l := match l with [] => True | o :: t => hop_nonempty n o /\ all (n + hop_size o)%Z t end) 0%Z src
      /\ (n + hop_size (HMerge src) <> 0)%Z
  | _ => (n + hop_size o <> 0)%Z
  end.
Fixpoint never_empty {V} (n : Z) (l : list (hop V)) : Prop :=
  match l with [] => True | o :: t => hop_nonempty n o /\ never_empty (n + hop_size o)%Z t end.

(** Only single additions and merges, also in the histories of the sources. *)
Fixpoint hop_grows {V} (o : hop V) : Prop :=
  match o with
  | HAdd _ => True
  | HMerge src => (fix all l := match l with [] => True | o :: t => hop_grows o /\ all t end) src
  | HRem _ | HRep _ _ => False
  end.
Fixpoint only_grows {V} (l : list (hop V)) : Prop :=
  match l with [] => True | o :: t => hop_grows o /\ only_grows t end.
