(** Probabilities proportional to the exponentials of scores. *)
From Coq Require Import List Reals.
From Verif.spec Require Import PartitionSpec RandomSpec.
Import ListNotations.
Local Open Scope R_scope.

Definition softmax (scores : list R) : list R := map (fun s => exp s / rsum (map exp scores)) scores.
