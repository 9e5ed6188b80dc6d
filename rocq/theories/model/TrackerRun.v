(** Running a history of client calls on the tracker model. *)
From Verif.model Require Import Base IdTracker.
From Verif.spec Require Import TrackerSpec.

(** One client call, mixture.hpp:463-494 *)
Definition trun1 (dl : nat) (t : tracker) (o : top) : outcome tracker :=
  match o with
  | TAdd => Ok (tracker_add_group t)
  | TRem p => tracker_remove_group dl t p
  end.

(** A history of client calls, mixture.hpp:463-494 *)
Fixpoint trun (dl : nat) (t : tracker) (ops : list top) : outcome tracker :=
  match ops with
  | [] => Ok t
  | o :: ops' => let* t' := trun1 dl t o in trun dl t' ops'
  end.

(** Observable: the global id of some packed id (mixture.hpp:496-501). *)
Definition live (dl : nat) (t : tracker) (g : Z) : Prop :=
  exists p, (0 <= p < packed_size t)%Z /\ packed_to_global dl t p = Ok g.
