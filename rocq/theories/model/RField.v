(** The real numbers of the standard library as a field of the mathcomp hierarchy, so that its
    theory of matrices applies.  The choice structure uses the standard library's axiom of
    indefinite description. *)
From Coq Require Import Reals Lra ClassicalEpsilon FunctionalExtensionality.
From mathcomp Require Import all_ssreflect all_algebra.
Set Implicit Arguments.
Unset Strict Implicit.
Unset Printing Implicit Defensive.

(** Model only: equality test on R (the matrices of niw.hpp:67-68 are over a field). *)
Definition eqr (x y : R) : bool := if Req_EM_T x y then true else false.
Lemma eqrP : Equality.axiom eqr.
Proof. by move=> x y; rewrite /eqr; case: Req_EM_T => H; constructor. Qed.
Definition R_eqMixin := EqMixin eqrP.
Canonical R_eqType := Eval hnf in EqType R R_eqMixin.

Definition pickR (P : pred R) (n : nat) : option R :=
  match excluded_middle_informative (exists x, P x) with
  | left H => Some (proj1_sig (constructive_indefinite_description _ H))
  | right _ => None
  end.
Lemma pickR_some P n x : pickR P n = Some x -> P x.
Proof.
  rewrite /pickR; case: excluded_middle_informative => // H [<-].
  exact: (proj2_sig (constructive_indefinite_description _ H)).
Qed.
Lemma pickR_ex (P : pred R) : (exists x, P x) -> exists n, pickR P n.
Proof. by move=> H; exists 0%N; rewrite /pickR; case: excluded_middle_informative. Qed.
Lemma pickR_ext (P Q : pred R) : P =1 Q -> pickR P =1 pickR Q.
Proof. by move=> E n; congr (pickR _ n); apply: functional_extensionality. Qed.
Definition R_choiceMixin := Choice.Mixin pickR_some pickR_ex pickR_ext.
Canonical R_choiceType := Eval hnf in ChoiceType R R_choiceMixin.

Local Open Scope R_scope.
Definition R_zmodMixin := ZmodMixin (fun x y z : R => esym (Rplus_assoc x y z)) Rplus_comm Rplus_0_l Rplus_opp_l.
Canonical R_zmodType := Eval hnf in ZmodType R R_zmodMixin.

Lemma R1_neq0 : (1 : R) != 0.
Proof. by apply/eqP; exact: R1_neq_R0. Qed.
Definition R_ringMixin :=
  RingMixin (fun x y z : R => esym (Rmult_assoc x y z)) Rmult_1_l Rmult_1_r Rmult_plus_distr_r Rmult_plus_distr_l R1_neq0.
Canonical R_ringType := Eval hnf in RingType R R_ringMixin.
Canonical R_comRingType := Eval hnf in ComRingType R Rmult_comm.

Definition invr' (x : R) : R := if x == 0 then 0 else / x.
Lemma mulVr' (x : R) : x != 0 -> invr' x * x = 1.
Proof. by move=> H; rewrite /invr' (negbTE H); apply: Rinv_l; apply/eqP. Qed.
Lemma invr0' : invr' 0 = 0.
Proof. by rewrite /invr' eqxx. Qed.
Definition R_unitRingMixin := FieldUnitMixin mulVr' invr0'.
Canonical R_unitRingType := Eval hnf in UnitRingType R R_unitRingMixin.
Canonical R_comUnitRingType := Eval hnf in [comUnitRingType of R].
Lemma R_fieldMixin : GRing.Field.mixin_of [unitRingType of R].
Proof. by []. Qed.
Definition R_idomainMixin := FieldIdomainMixin R_fieldMixin.
Canonical R_idomainType := Eval hnf in IdomainType R R_idomainMixin.
Canonical R_fieldType := Eval hnf in FieldType R R_fieldMixin.



