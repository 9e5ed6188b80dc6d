(** Running a history of client calls on the driver model.
    [drun] is client code: it stops at the first call that fails. *)
From Verif.model Require Import Base Driver.
From Verif.spec Require Import DriverSpec.

(** One client call, mixture.hpp:73-122. *)
Definition drun1 (dl : nat) (d : driver) (o : dop) : outcome (driver * bool) :=
  match o with
  | DAdd g n => driver_add dl d g n
  | DRem g n => driver_remove dl d g n
  end.

(** A sequence of client calls, mixture.hpp:73-122 *)
Fixpoint drun (dl : nat) (d : driver) (ops : list dop) : outcome (driver * list bool) :=
  match ops with
  | [] => Ok (d, [])
  | o :: ops' =>
      let* db := drun1 dl d o in
      let* db' := drun dl (fst db) ops' in
      Ok (fst db', snd db :: snd db')
  end.

(** States a client can reach with legal calls only (mixture.hpp:59-122). *)
Definition driver_reachable (dl : nat) (d : driver) : Prop :=
  exists cs d0 ops sizes outs,
    sizes_ok cs /\ driver_init dl cs = Ok d0 /\
    dhistory cs ops sizes outs /\ drun dl d0 ops = Ok (d, outs).
