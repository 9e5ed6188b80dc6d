(** Vectors of a fixed dimension and their sums, said with coordinates.  No reference to the
    model of the code. *)
From Coq Require Import List ZArith Reals.
From Verif.spec Require Import GroupSpec GaussSpec.
Import ListNotations.
Local Open Scope R_scope.

(** Coordinate i of x (used only for i < length x). *)
Definition coord (i : nat) (x : list R) : R := nth i x 0.
(** At most 2^31 - 1 data, each of dimension d. *)
Definition vectors (d : nat) (l : list (list R)) : Prop := short l /\ List.Forall (fun x => length x = d) l.
(** A repeated value has dimension d even if it is repeated 0 times. *)
Definition vec_op (d : nat) (_ : list (list R)) (o : gop (list R)) : Prop :=
  match o with GRep v _ => length v = d | _ => True end.

(** x is the vector of dimension d with coordinates f. *)
Definition is_vec (d : nat) (f : nat -> R) (x : list R) : Prop :=
  length x = d /\ forall i, (i < d)%nat -> nth_error x i = Some (f i).
(** A is the d by d matrix with entries f. *)
Definition is_mat (d : nat) (f : nat -> nat -> R) (A : list (list R)) : Prop :=
  length A = d /\ forall i, (i < d)%nat -> exists row, nth_error A i = Some row /\ is_vec d (f i) row.
(** Entry i, j of A *)
Definition entry (A : list (list R)) (i j : nat) : R := coord j (nth i A []).

(** d rows of length d *)
Definition square (d : nat) (A : list (list R)) : Prop := length A = d /\ List.Forall (fun r => length r = d) A.
(** The quadratic form of a matrix at the vector x (both as functions of the indices below d). *)
Definition quad (d : nat) (A : nat -> nat -> R) (x : nat -> R) : R :=
  rsum (map (fun i => rsum (map (fun j => x i * A i j * x j) (seq 0 d))) (seq 0 d)).
(** Symmetric and positive definite. *)
Definition spd (d : nat) (A : list (list R)) : Prop :=
  (forall i j, (i < d)%nat -> (j < d)%nat -> entry A i j = entry A j i) /\
  forall x, (exists i, (i < d)%nat /\ x i <> 0) -> 0 < quad d (entry A) x.
(** Vectors with fewer than 2^32 coordinates in all: count * dim does not wrap. *)
Definition few_vectors (d : nat) (l : list (list R)) : Prop :=
  vectors d l /\ (Z.of_nat (length l) * Z.of_nat d < 4294967296)%Z.
