(** Sums, cumulative sums and maxima of lists of reals. *)
From Coq Require Import List Reals.
From Verif.spec Require Import PartitionSpec.
Import ListNotations.
Local Open Scope R_scope.

(** Sum of the first i entries. *)
Definition cum (l : list R) (i : nat) : R := rsum (firstn i l).

Definition is_max (l : list R) (m : R) : Prop := In m l /\ forall x, In x l -> x <= m.
Definition is_min (l : list R) (m : R) : Prop := In m l /\ forall x, In x l -> m <= x.

(** Normalised log-probability of entry s among the scores l. *)
Definition log_normaliser (l : list R) : R := ln (rsum (map exp l)).
