(** Client code: a history of Shared::add_value / remove_value calls (dpd.hpp:66-81), the
    sampler's answers being part of the history. *)
From Coq Require Import Reals.
From Verif.spec Require Import SharedSpec.
From Verif.model Require Import Base Num DPD.
From stdpp Require Import gmap.
Local Open Scope R_scope.

Section Run.
  Context {N : Num R}.
  (** One client call on a Shared, dpd.hpp:66-81 *)
  Definition dps_run1 (dl : nat) (sh : dpd_shared R) (o : dop) : outcome (dpd_shared R) :=
    match o with DAdd v u => dps_add dl sh v u | DRem v => dps_remove dl sh v end.
  (** A history of client calls, dpd.hpp:66-81 *)
  Fixpoint dps_run (dl : nat) (sh : dpd_shared R) (ops : list dop) : outcome (dpd_shared R) :=
    match ops with
    | [] => Ok sh
    | o :: ops' => let* sh' := dps_run1 dl sh o in dps_run dl sh' ops'
    end.

  (** No clamping in add_value (dpd.hpp:70-71): every value that is new when it is added leaves
      at least MIN_BETA unallocated. *)
  Fixpoint roomy (dl : nat) (sh : dpd_shared R) (ops : list dop) : Prop :=
    match ops with
    | [] => True
    | o :: ops' =>
        match o with
        | DAdd v u => dp_betas sh !! v = None -> 1 / 1000000 <= dp_beta0 sh * (1 - u)
        | DRem _ => True
        end /\ (forall sh', dps_run1 dl sh o = Ok sh' -> roomy dl sh' ops')
    end.
End Run.
