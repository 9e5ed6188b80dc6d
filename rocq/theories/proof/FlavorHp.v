(** The Cython gamma-Poisson group against the Python one. *)
From Coq Require Import Reals Lra Lia.
From Verif.model Require Import Base Num NumR Component HistoryRun GP Dbg.
From Verif.spec Require Import FlavorSpec LgammaSpec.
From Verif.proof Require Import BaseProof FlavorProof.
Local Open Scope R_scope.

Definition int_value (v : Z) : Prop := (0 <= v <= 2147483647)%Z.

Section S.
  Variable lg : R -> R.
  Hypothesis Hlg : lgamma_like lg.
  #[local] Hint Extern 0 (Num R) => exact (NumR lg) : typeclass_instances.

  Lemma lg_fact : forall n, lg (INR n + 1) = ln_fact n.
  Proof.
    induction n as [|n IH]; [cbn; rewrite Rplus_0_l; apply (lg_one _ Hlg)|].
    rewrite (lg_succ _ Hlg) by (apply lt_0_INR; lia). rewrite S_INR at 2. rewrite IH. cbn [ln_fact]. lra.
  Qed.
  Lemma hp_fact : forall v, int_value v -> py_log_factorial (F:=R) v = Ok (hp_log_factorial (u32 v)).
  Proof.
    intros v Hv. unfold int_value in Hv. unfold py_log_factorial, hp_log_factorial. rewrite (proj2 (Z.ltb_ge v 0)) by lia.
    rewrite (u32_id v), u32_id by lia. f_equal. cbn. rewrite plus_IZR. rewrite <- lg_fact. f_equal.
    rewrite INR_IZR_INZ, Z2Nat.id by lia. reflexivity.
  Qed.
  Lemma hp_gp_sim : forall dl (sh : gp_shared R) l p, all_values int_value l ->
    hrun (HpGP R) dl sh l = Ok p -> hrun (PyGP R) dl sh l = Ok p.
  Proof.
    intros dl sh l p HV H.
    destruct (sim_of (HpGP R (N:=NumR lg)) (PyGP R (N:=NumR lg)) dl dl sh sh int_value eq False) with (l := l) (g := p)
      as [(q & E & <-)|[[] _]]; try exact E; try exact H; try exact HV.
    - reflexivity.
    - intros g q v Hv <- g1 E. left. exists g1. split; [|reflexivity]. cbn [c_add HpGP PyGP] in *. i32s.
      rewrite hp_fact by exact Hv. cbn [obind]. subst. exact E.
    - intros g q v n Hv <- g1 E. left. exists g1. split; [|reflexivity]. cbn [c_rep HpGP PyGP] in *. i32s.
      rewrite hp_fact by exact Hv. cbn [obind]. subst. exact E.
    - intros g q v Hv <- g1 E. left. exists g1. split; [|reflexivity]. cbn [c_rem HpGP PyGP] in *. i32s.
      rewrite hp_fact by exact Hv. cbn [obind]. subst. exact E.
    - intros g q g' q' <- <- g1 E. left. exists g1. split; [|reflexivity]. cbn [c_merge HpGP PyGP] in *. i32s.
      subst. exact E.
  Qed.
  Lemma hp_gp_sv : forall (sh : gp_shared R) p v, int_value v ->
    py_gp_score_value sh p v = Ok (hp_gp_score_value sh p v).
  Proof. intros sh p v Hv. unfold py_gp_score_value. rewrite hp_fact by exact Hv. reflexivity. Qed.
  Lemma hp_gp_sd : forall (sh : gp_shared R) p, hp_gp_score_data sh p = py_gp_score_data sh p.
  Proof. intros sh p. unfold hp_gp_score_data, py_gp_score_data. cbn. lra. Qed.
End S.
