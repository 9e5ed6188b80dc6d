(** Client code that uses one DirichletProcessDiscrete Shared (dpd.hpp:58-152) with one mixture
    (mixture.hpp:340-450): calls on either, in any order. *)
From Coq Require Import Reals.
From Verif.spec Require Import SharedSpec SlaveSpec JointSpec.
From Verif.model Require Import Base Num Component Slave SlaveRun DPD SharedRun.

Section Run.
  Context {N : Num R}.
  (** MixtureValueScorer of dpd.hpp:376-578 *)
  Notation SV := (dpd_vscorer (F:=R)).
  (** A history of client calls on a Shared (dpd.hpp:66-81) and a mixture over it (mixture.hpp:340-448) *)
  Fixpoint joint_run (dl : nat) (sh : dpd_shared R) (s : slave SV) (ops : list jop) : outcome (dpd_shared R * slave SV) :=
    match ops with
    | [] => Ok (sh, s)
    | JShared o :: ops' => let* sh' := dps_run1 dl sh o in joint_run dl sh' s ops'
    | JMix o :: ops' => let* s' := slave_run1 SV dl sh s o in joint_run dl sh s' ops'
    end.
End Run.
