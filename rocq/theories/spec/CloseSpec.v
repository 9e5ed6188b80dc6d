(** Values handed to are_close: numbers, integers, vectors and pairs, nested at will;
    and what "close" means for them. *)
From Coq Require Import List ZArith.
Import ListNotations.

(** A C++ type: [SInt] any type compared exactly (integers, bool), [SNum] a floating-point
    type, std::vector and std::pair. *)
Inductive shape :=
| SInt
| SNum
| SVec (elem : shape)
| SPair (first second : shape).

Fixpoint value (F : Type) (s : shape) : Type :=
  match s with
  | SInt => Z
  | SNum => F
  | SVec t => list (value F t)
  | SPair a b => (value F a * value F b)%type
  end.

(** All floating-point leaves satisfy P. *)
Fixpoint leaves {F} (P : F -> Prop) (s : shape) : value F s -> Prop :=
  match s return value F s -> Prop with
  | SInt => fun _ => True
  | SNum => P
  | SVec t => Forall (leaves P t)
  | SPair a b => fun v => leaves P a (fst v) /\ leaves P b (snd v)
  end.

(** Closeness leaf by leaf: same sizes, equal integers, numbers related by [near]. *)
Fixpoint leafwise {F} (near : F -> F -> Prop) (s : shape) : value F s -> value F s -> Prop :=
  match s return value F s -> value F s -> Prop with
  | SInt => eq
  | SNum => near
  | SVec t => Forall2 (leafwise near t)
  | SPair a b => fun v w => leafwise near a (fst v) (fst w) /\ leafwise near b (snd v) (snd w)
  end.

(** No vector in the type has pairs as elements. *)
Fixpoint no_vec_of_pair (s : shape) : Prop :=
  match s with
  | SInt | SNum => True
  | SVec (SPair _ _) => False
  | SVec t => no_vec_of_pair t
  | SPair a b => no_vec_of_pair a /\ no_vec_of_pair b
  end.
