(** The values added by a history, through however many merges. *)
From Coq Require Import List.
From Verif.spec Require Import FlavorSpec.
Import ListNotations.

Fixpoint hop_added {V} (o : hop V) : list V :=
  match o with
  | HAdd v => [v]
  | HRem _ | HRep _ _ => []
  | HMerge src => (fix all l := match l with [] => [] | o :: t => hop_added o ++ all t end) src
  end.
Fixpoint added {V} (l : list (hop V)) : list V :=
  match l with [] => [] | o :: t => hop_added o ++ added t end.
