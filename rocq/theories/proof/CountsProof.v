(** BetaNegativeBinomial and GammaPoisson group statistics. *)
From Coq Require Import Permutation Reals Lra.
From Verif.model Require Import Base Num NumR Component BNB GP.
From Verif.spec Require Import GroupSpec GaussSpec.
From Verif.proof Require Import BaseProof GroupProof.

Definition bnb_stat (l : list Z) : bnb_group := mk_bnb (u32 (Z.of_nat (length l))) (u32 (zsum l)).

Section BNB.
  Context {F : Type}.
  Variables (dl : nat) (sh : bnb_shared F).

  Lemma bnb_stat_perm l l' : Permutation l l' -> bnb_stat l = bnb_stat l'.
  Proof. intro P. unfold bnb_stat. now rewrite (Permutation_length P), (zsum_perm _ _ P). Qed.
  Lemma bnb_add_stat l v : c_add (BNB F) dl sh (bnb_stat l) v = Ok (bnb_stat (v :: l)).
  Proof.
    cbn. unfold bnb_add, bnb_stat. cbn [bnb_count bnb_sum length zsum].
    rewrite !u32_add_l. f_equal. f_equal; f_equal; lia.
  Qed.
  Lemma bnb_rem_stat l v : c_rem (BNB F) dl sh (bnb_stat (v :: l)) v = Ok (bnb_stat l).
  Proof.
    cbn. unfold bnb_rem, bnb_stat. cbn [bnb_count bnb_sum length zsum].
    rewrite !u32_sub_l. f_equal. f_equal; f_equal; lia.
  Qed.
  Lemma bnb_rep_stat l v n : c_rep (BNB F) dl sh (bnb_stat l) v (Z.of_nat n) = Ok (bnb_stat (repeat v n ++ l)).
  Proof.
    cbn. unfold bnb_rep, bnb_stat. cbn [bnb_count bnb_sum].
    rewrite app_length, repeat_length, zsum_app, zsum_repeat.
    rewrite u32_mul_l, !u32_add_l, !u32_add_r. f_equal. f_equal; f_equal; lia.
  Qed.
  Lemma bnb_merge_stat l ys : c_merge (BNB F) dl sh (bnb_stat l) (bnb_stat ys) = Ok (bnb_stat (ys ++ l)).
  Proof.
    cbn. unfold bnb_merge, bnb_stat. cbn [bnb_count bnb_sum].
    rewrite app_length, zsum_app. rewrite !u32_add_l, !u32_add_r. f_equal. f_equal; f_equal; lia.
  Qed.

  Lemma bnb_history ops l : ghistory any_op all_lists [] ops l ->
    grun (BNB F) dl sh (c_init (BNB F) sh) ops = Ok (bnb_stat l).
  Proof.
    apply (grun_init (BNB F) dl sh bnb_stat any_op all_lists); try reflexivity; try (intros; exact I).
    - exact bnb_stat_perm. - intros; apply bnb_add_stat. - intros; apply bnb_rem_stat.
    - intros; apply bnb_rep_stat. - intros; apply bnb_merge_stat.
  Qed.
  Lemma bnb_filled l : c_filled (BNB F) dl sh l = Ok (bnb_stat l).
  Proof.
    apply (filled_stat (BNB F) dl sh bnb_stat all_lists); try reflexivity; try (intros; exact I).
    - exact bnb_stat_perm. - intros; apply bnb_add_stat.
  Qed.
End BNB.

(** GammaPoisson in exact arithmetic. *)
Local Open Scope R_scope.
Fixpoint sum_ln_fact (l : list Z) : R := match l with [] => 0 | v :: t => ln_fact (Z.to_nat v) + sum_ln_fact t end.
Definition gp_stat (l : list Z) : gp_group R :=
  mk_gp (u32 (Z.of_nat (length l))) (u32 (zsum l)) (sum_ln_fact l).

Lemma slf_app a b : sum_ln_fact (a ++ b) = sum_ln_fact a + sum_ln_fact b.
Proof. induction a as [|x a IH]; cbn [app sum_ln_fact]; [lra|]. rewrite IH. lra. Qed.
Lemma slf_perm a b : Permutation a b -> sum_ln_fact a = sum_ln_fact b.
Proof. induction 1; cbn [sum_ln_fact]; lra. Qed.
Lemma slf_repeat v n : sum_ln_fact (repeat v n) = IZR (Z.of_nat n) * ln_fact (Z.to_nat v).
Proof.
  induction n as [|n IH]; cbn [repeat sum_ln_fact]; [simpl; lra|].
  rewrite IH, Nat2Z.inj_succ, succ_IZR. lra.
Qed.

Section GP.
  Variable lg : R -> R.
  Let NR : Num R := NumR lg.
  Existing Instance NR.
  Variables (dl : nat) (sh : gp_shared R).
  Notation GPR := (GP R (N:=NR)).

  Lemma gp_stat_perm l l' : Permutation l l' -> gp_stat l = gp_stat l'.
  Proof. intro P. unfold gp_stat. now rewrite (Permutation_length P), (zsum_perm _ _ P), (slf_perm _ _ P). Qed.
  Lemma gp_add_stat l v : c_add GPR dl sh (gp_stat l) v = Ok (gp_stat (v :: l)).
  Proof.
    cbn. unfold gp_add, gp_stat. cbn [gp_count gp_sum gp_log_prod length zsum sum_ln_fact].
    rewrite !u32_add_l. f_equal. f_equal; [f_equal; lia|f_equal; lia|]. cbn. lra.
  Qed.
  Lemma gp_rem_stat l v : c_rem GPR dl sh (gp_stat (v :: l)) v = Ok (gp_stat l).
  Proof.
    cbn. unfold gp_rem, gp_stat. cbn [gp_count gp_sum gp_log_prod length zsum sum_ln_fact].
    rewrite !u32_sub_l. f_equal. f_equal; [f_equal; lia|f_equal; lia|]. cbn. lra.
  Qed.
  Lemma gp_rep_stat l v n : c_rep GPR dl sh (gp_stat l) v (Z.of_nat n) = Ok (gp_stat (repeat v n ++ l)).
  Proof.
    cbn -[IZR]. unfold gp_rep, gp_stat. cbn [gp_count gp_sum gp_log_prod].
    rewrite app_length, repeat_length, zsum_app, zsum_repeat, slf_app, slf_repeat.
    rewrite u32_mul_l, !u32_add_l, !u32_add_r. f_equal. f_equal; [f_equal; lia|f_equal; lia|].
    cbn -[IZR]. lra.
  Qed.
  Lemma gp_merge_stat l ys : c_merge GPR dl sh (gp_stat l) (gp_stat ys) = Ok (gp_stat (ys ++ l)).
  Proof.
    cbn. unfold gp_merge, gp_stat. cbn [gp_count gp_sum gp_log_prod].
    rewrite app_length, zsum_app, slf_app. rewrite !u32_add_l, !u32_add_r.
    f_equal. f_equal; [f_equal; lia|f_equal; lia|]. cbn. lra.
  Qed.
  Lemma gp_history ops l : ghistory any_op all_lists [] ops l ->
    grun GPR dl sh (c_init GPR sh) ops = Ok (gp_stat l).
  Proof.
    apply (grun_init GPR dl sh gp_stat any_op all_lists); try reflexivity; try (intros; exact I).
    - exact gp_stat_perm. - intros; apply gp_add_stat. - intros; apply gp_rem_stat.
    - intros; apply gp_rep_stat. - intros; apply gp_merge_stat.
  Qed.
  Lemma gp_filled l : c_filled GPR dl sh l = Ok (gp_stat l).
  Proof.
    apply (filled_stat GPR dl sh gp_stat all_lists); try reflexivity; try (intros; exact I).
    - exact gp_stat_perm. - intros; apply gp_add_stat.
  Qed.
End GP.

Lemma ln_fact_eq n : ln_fact n = ln (INR (fact n)).
Proof.
  induction n as [|n IH]; cbn [ln_fact]; [cbn; now rewrite ln_1|].
  rewrite IH. change (fact (S n)) with (S n * fact n)%nat. rewrite mult_INR.
  rewrite ln_mult; [lra|apply lt_0_INR; lia|apply INR_fact_lt_0].
Qed.
Lemma slf_rsum l : sum_ln_fact l = rsum (map (fun v => ln (INR (fact (Z.to_nat v)))) l).
Proof. induction l as [|v l IH]; cbn [sum_ln_fact map rsum]; [reflexivity|]. now rewrite IH, ln_fact_eq. Qed.
