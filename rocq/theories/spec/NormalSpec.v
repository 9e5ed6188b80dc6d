(** Multivariate normal laws, said with coordinates.  No reference to the model of the code. *)
From Coq Require Import List Reals.
From Verif.spec Require Import GaussSpec NiwSpec.
Import ListNotations.
Local Open Scope R_scope.

(** A draw computed from d independent standard normal numbers z has mean m and covariance
    matrix S if it is m + L z for some L with L L^T = S. *)
Definition normal_law (d : nat) (m : nat -> R) (S : nat -> nat -> R) (draw : list R -> list R -> Prop) : Prop :=
  exists L : nat -> nat -> R,
    (forall i j, (i < d)%nat -> (j < d)%nat -> rsum (map (fun k => L i k * L j k) (seq 0 d)) = S i j) /\
    forall z, length z = d -> exists x, draw z x /\
      is_vec d (fun i => m i + rsum (map (fun j => L i j * coord j z) (seq 0 d))) x.

(** Bartlett's construction: W = (L A) (L A)^T, where L is a lower triangular factor of the
    scale matrix and A is lower triangular with square roots of chi-squared draws c i on the
    diagonal and standard normal draws below. *)
Definition bartlett_law (d : nat) (scale : nat -> nat -> R) (c : nat -> R) (norm : nat -> nat -> R) (W : nat -> nat -> R) : Prop :=
  exists L A : nat -> nat -> R,
    (forall i j, (i < j)%nat -> L i j = 0 /\ A i j = 0) /\
    (forall i j, (i < d)%nat -> (j < d)%nat -> rsum (map (fun k => L i k * L j k) (seq 0 d)) = scale i j) /\
    (forall i, (i < d)%nat -> 0 <= A i i /\ Rsqr (A i i) = c i) /\
    (forall i j, (j < i)%nat -> A i j = norm i j) /\
    (forall i j, (i < d)%nat -> (j < d)%nat ->
      W i j = rsum (map (fun k => rsum (map (fun l => L i l * A l k) (seq 0 d)) * rsum (map (fun l => L j l * A l k) (seq 0 d))) (seq 0 d))).
