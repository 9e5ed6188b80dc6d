(** The literals for ln pi. *)
From Coq Require Import Reals Lra ZArith Lia.
From Verif.proof Require Import LnBounds PiBound FloatRel.
Local Open Scope R_scope.

Local Ltac lstep k n :=
  let A := fresh in pose proof (step_ok k n ltac:(lia) ltac:(lia)) as A;
  unfold scale in A; change (10 ^ 20)%Z with 100000000000000000000%Z in A;
  let lo := eval vm_compute in (step_lo k n) in let hi := eval vm_compute in (step_hi k n) in
  change (step_lo k n) with lo in A; change (step_hi k n) with hi in A;
  let k1 := eval vm_compute in (k + 1)%Z in change (k + 1)%Z with k1 in A.

Lemma ln_pi_14 : Rabs (ln PI - 11447298858494002 / 10000000000000000) <= / 10 ^ 14 + / 10 ^ 15.
Proof.
  lstep 1%Z 30%nat. lstep 2%Z 20%nat. lstep 4%Z 16%nat. lstep 6%Z 14%nat. lstep 71%Z 8%nat. lstep 112%Z 8%nat.
  rewrite ln_1 in *. pose proof pi_15 as [L U].
  assert (ln 4 = 2 * ln 2) as E4 by (replace 4 with (2 * 2) by ring; rewrite ln_mult by lra; ring).
  assert (ln 6 = ln 2 + ln 3) as E6 by (replace 6 with (2 * 3) by ring; rewrite ln_mult by lra; ring).
  assert (ln 72 = 3 * ln 2 + 2 * ln 3) as E72 by (replace 72 with (2 * (2 * 2) * (3 * 3)) by ring; rewrite !ln_mult by lra; ring).
  assert (ln 112 = 4 * ln 2 + ln 7) as E112 by (replace 112 with (2 * (2 * 2) * (2 * 7)) by ring; rewrite !ln_mult by lra; ring).
  assert (ln PI = ln 5 + ln 71 - ln 113 + ln (PI * 113 / 355)) as EP.
  { replace (PI * 113 / 355) with (PI * (113 / (5 * 71))) by field. rewrite (ln_mult PI) by lra. unfold Rdiv.
    rewrite (ln_mult 113), ln_Rinv, ln_mult by lra. ring. }
  set (y := PI * 113 / 355) in *. assert (1 - 85 / 10 ^ 9 <= y <= 1) as By by (unfold y; cbn [pow]; lra).
  assert (ln y <= y - 1) as Yu.
  { rewrite <- (ln_exp (y - 1)). apply ln_le'; [cbn [pow] in By; lra |]. pose proof (exp_ineq1_le (y - 1)). lra. }
  assert (1 - / y <= ln y) as Yl.
  { cbn [pow] in By. rewrite <- (Ropp_involutive (ln y)), <- ln_Rinv by lra. assert (0 < / y) by (apply Rinv_0_lt_compat; lra).
    assert (ln (/ y) <= / y - 1); [| lra]. rewrite <- (ln_exp (/ y - 1)). apply ln_le'; [lra |]. pose proof (exp_ineq1_le (/ y - 1)). lra. }
  assert (y - 1 - 725 / 10 ^ 17 <= 1 - / y) as Yi.
  { cbn [pow] in *. apply Rmult_le_reg_r with y; [lra |]. replace ((1 - / y) * y) with (y - 1) by (field; lra). nra. }
  apply Rabs_le. unfold y in *. cbn [pow] in *. split; lra.
Qed.
