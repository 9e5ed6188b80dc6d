(** Clusterings of rows, up to the names of the groups. *)
From Coq Require Import ZArith.
From stdpp Require Import gmap.

(** Two assignments of rows to groups seat the same rows and put the same rows together. *)
Definition same_clusters (a a' : gmap nat Z) : Prop :=
  (forall j, a !! j = None <-> a' !! j = None) /\
  (forall j k, a !! j <> None -> a !! k <> None -> (a !! j = a !! k <-> a' !! j = a' !! k)).
(** They do so except possibly for row [i]. *)
Definition agree_off (i : nat) (a a' : gmap nat Z) : Prop := same_clusters (delete i a) (delete i a').
