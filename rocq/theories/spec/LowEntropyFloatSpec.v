(** The low-entropy law gives a block of size c the weight c^c. *)
From Coq Require Import ZArith Reals.
Local Open Scope R_scope.

(** Logarithm of the factor by which a block of size g gains weight when it receives one more value. *)
Definition le_gain (g : Z) : R := ln (IZR ((g + 1) ^ (g + 1)) / IZR (g ^ g)).

(** The score of a new block when [n] of [dataset] values are placed and [e] groups are empty (the fit of
    derivations/clustering.py): the block's own weight is 1, and the values still to come favour it. *)
Definition le_new (dataset n e : Z) : R :=
  ln (IZR dataset / IZR (n + 1)) * (45 / 100 - / 10 / IZR (n + 1) - / 10 / IZR dataset) - ln (IZR e).
