(** What the table of fmath::exp holds: fraction bits of floats next to 2^(i/1024). *)
From Coq Require Import List ZArith Reals.
Import ListNotations.
Local Open Scope R_scope.

Definition faithful_table (tbl : list Z) : Prop :=
  length tbl = 1024%nat /\ nth_error tbl 0 = Some 0%Z /\
  forall i m, nth_error tbl i = Some m ->
    (0 <= m < 8388608)%Z /\
    Rabs (1 + IZR m / 8388608 - Rpower 2 (INR i / 1024)) <= / 8388608.
