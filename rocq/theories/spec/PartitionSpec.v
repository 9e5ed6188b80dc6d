(** Seating values one at a time. *)
From Coq Require Import List ZArith Reals Arith.
Import ListNotations.
Local Open Scope R_scope.

(** [add size nonempty n] is the score of adding one value to a group currently of
    that size, when there are [nonempty] non-empty groups and [n] values in all.
    [past] lists the groups of the values already seated, [rest] those to come. *)
Fixpoint seating_score (add : Z -> Z -> Z -> R) (past rest : list nat) : R :=
  match rest with
  | [] => 0
  | g :: rest' =>
      add (Z.of_nat (count_occ Nat.eq_dec past g))
          (Z.of_nat (length (nodup Nat.eq_dec past)))
          (Z.of_nat (length past))
      + seating_score add (g :: past) rest'
  end.

(** Sizes of the groups 0 .. k-1 of a seating. *)
Definition group_sizes (k : nat) (seating : list nat) : list Z :=
  map (fun g => Z.of_nat (count_occ Nat.eq_dec seating g)) (seq 0 k).

Fixpoint rsum (l : list R) : R := match l with [] => 0 | x :: t => x + rsum t end.

(** The two-parameter Chinese restaurant rule: probability that the next of [n] + 1 values joins
    a given group of size [c], when K groups are occupied and [e] empty ones share the rest. *)
Definition py_rule (a d n K e c : R) : R :=
  if Req_EM_T c 0 then ((a + d * K) / e) / (n + a) else (c - d) / (n + a).
