(** Running a history of client calls on the cached Pitman-Yor mixture. *)
From stdpp Require Import gmap.
From Verif.model Require Import Base Driver Num PitmanYor.
From Verif.spec Require Import DriverSpec.

Section Run.
  Context {F : Type} {N : Num F}.
  (** One client call, clustering.hpp:163-193 *)
  Definition pyrun1 (dl : nat) (m : py F) (c : cached F) (o : dop) : outcome (cached F * bool) :=
    match o with
    | DAdd g n => py_add dl m c g n
    | DRem g n => py_remove dl m c g n
    end.
  (** A sequence of client calls, clustering.hpp:163-193 *)
  Fixpoint pyrun (dl : nat) (m : py F) (c : cached F) (ops : list dop) : outcome (cached F * list bool) :=
    match ops with
    | [] => Ok (c, [])
    | o :: t =>
        let* r := pyrun1 dl m c o in
        let* r' := pyrun dl m r.1 t in
        Ok (r'.1, r.2 :: r'.2)
    end.
End Run.
