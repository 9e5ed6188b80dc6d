(** The low-entropy law on partitions: each block of size c carries the weight c^c. *)
From Coq Require Import List ZArith Reals.
From Verif.spec Require Import LabelSpec.
Import ListNotations.
Local Open Scope R_scope.

(** Product of c^c over the block sizes. *)
Fixpoint low_entropy_weight (sizes : list Z) : R :=
  match sizes with [] => 1 | c :: cs => IZR (c ^ c) * low_entropy_weight cs end.

(** Block sizes of the partition given by a label sequence. *)
Definition block_sizes (a : list Z) : list Z := label_sizes (next_label 0 a) a.

(** Entries within half a unit in the last place of the decimals [digits] / 10^8: the exact decimals, or their nearest
    floats. *)
Definition table_of (digits : list Z) (table : list R) : Prop :=
  Forall2 (fun d x => Rabs (x - IZR d / 100000000) <= IZR d / 100000000 / 2 ^ 24) digits table.
