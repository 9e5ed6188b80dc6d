(** Probability densities on the real line and in several dimensions. *)
From Coq Require Import List Reals.
From Coquelicot Require Import Coquelicot.
Import ListNotations.
Local Open Scope R_scope.

(** The integral of [f] over the whole line is [m]: over [a, b] it comes as near to [m] as one likes, once [a] is far
    enough to the left and [b] to the right. *)
Definition total_mass (f : R -> R) (m : R) : Prop :=
  forall eps, 0 < eps -> exists T, forall a b, a <= - T -> T <= b -> ex_RInt f a b /\ Rabs (RInt f a b - m) < eps.

(** The integral of [f] over all vectors of dimension d is [m], one coordinate after the other: [g rest] is the integral
    over the first coordinate when the others are [rest]. *)
Fixpoint total_mass_n (d : nat) (f : list R -> R) (m : R) : Prop :=
  match d with
  | O => f [] = m
  | S d' => exists g, (forall rest, length rest = d' -> total_mass (fun x => f (x :: rest)) (g rest)) /\ total_mass_n d' g m
  end.

(** The integral of [f] over all sequences of n vectors of dimension d is [m], one vector after the other. *)
Fixpoint total_mass_seq (d n : nat) (f : list (list R) -> R) (m : R) : Prop :=
  match n with
  | O => f [] = m
  | S n' => exists g, (forall rest, length rest = n' -> List.Forall (fun v => length v = d) rest ->
                         total_mass_n d (fun v => f (v :: rest)) (g rest)) /\ total_mass_seq d n' g m
  end.
