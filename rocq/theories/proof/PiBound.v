(** The literal M_PIf against pi, by Machin's formula. *)
From Coq Require Import Reals Lra.
Local Open Scope R_scope.

Lemma pi_15 : 314159265358979 / 100000000000000 <= PI <= 314159265358980 / 100000000000000.
Proof.
  pose proof (PI_2_3_7_ineq 7) as H. unfold tg_alt, PI_2_3_7_tg, Ratan_seq in H. cbn [sum_f_R0 Nat.mul Nat.add] in H.
  rewrite !INR_IZR_INZ in H. cbn [Z.of_nat Pos.of_succ_nat Pos.succ] in H. rewrite !pow_inv in H. cbn [pow] in H. lra.
Qed.
Lemma pi_factor : 1 - 4 / 10 ^ 15 <= sqrt (314159265358979 / 100000000000000 / PI) <= 1.
Proof.
  pose proof pi_15 as [L U]. set (c := 314159265358979 / 100000000000000) in *. assert (3 < c) as Pc by (unfold c; lra).
  assert (0 < PI) as PP by lra.
  assert (c / PI * PI = c) as E by (field; lra).
  assert (c / PI <= 1) as H1 by (apply Rmult_le_reg_r with PI; [exact PP |]; rewrite E; lra).
  assert (1 - 4 / 10 ^ 15 <= c / PI) as H0 by (apply Rmult_le_reg_r with PI; [exact PP |]; rewrite E; cbn [pow]; unfold c in *; lra).
  assert (0 <= c / PI) as H2 by (cbn [pow] in H0; lra).
  split.
  - apply Rle_trans with (c / PI); [exact H0 |]. rewrite <- (sqrt_sqrt (c / PI)) at 1 by exact H2.
    assert (sqrt (c / PI) <= 1) by (rewrite <- sqrt_1; now apply sqrt_le_1_alt). pose proof (sqrt_pos (c / PI)). nra.
  - rewrite <- sqrt_1. now apply sqrt_le_1_alt.
Qed.
