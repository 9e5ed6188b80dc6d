(** score_counts of LowEntropy for two values out of three. *)
From Coq Require Import List ZArith Reals Lra Lia.
From Verif.model Require Import Base Num NumR Sampler LowEntropyTable.
From Verif.spec Require Import LabelSpec LowEntropySpec.
From Verif.proof Require Import LnBounds LowEntropySum LowEntropyNormal.
Import ListNotations.
Local Open Scope R_scope.

Lemma ln_near d c z : check d c z = true -> (IZR d - 1) / 100000000 <= ln (IZR z) <= (IZR d + 1) / 100000000.
Proof. intro H. apply check_sound in H as [_ H]. apply Rabs_def2' in H. lra. Qed.
Lemma ln_2 : 0.69314717 <= ln 2 <= 0.69314719.
Proof. pose proof ln2_lo. pose proof ln2_hi. lra. Qed.
Lemma ln_3 : 1.09861227 <= ln 3 <= 1.09861230.
Proof.
  assert (K : check 109861228 [(1, 1); (2, 1)]%Z 3 = true) by (vm_compute; reflexivity). apply ln_near in K. lra.
Qed.
Lemma exp_le x y : x <= y -> exp x <= exp y.
Proof. intros [H|H]; [left; now apply exp_increasing|right; now f_equal]. Qed.
Lemma ln_le x y : 0 < x -> x <= y -> ln x <= ln y.
Proof. intros H [K|K]; [left; now apply ln_increasing|right; now f_equal]. Qed.

(** (3/2)^(11/30) *)
Lemma factor : 1.16 <= exp (ln (3 / 2) * (11 / 30)) <= 1.161.
Proof.
  rewrite <- (exp_ln 1.16) at 1 by lra. rewrite <- (exp_ln 1.161) at 1 by lra.
  assert (A : INR 30 * ln 1.16 <= INR 11 * ln (3 / 2)).
  { rewrite <- !ln_pow by lra. apply ln_le; [apply pow_lt|]; lra. }
  assert (B : INR 11 * ln (3 / 2) <= INR 30 * ln 1.161).
  { rewrite <- !ln_pow by lra. apply ln_le; [apply pow_lt|]; lra. }
  replace (INR 30) with 30 in * by (rewrite INR_IZR_INZ; reflexivity). replace (INR 11) with 11 in * by (rewrite INR_IZR_INZ; reflexivity).
  split; apply exp_le; lra.
Qed.
(** (ln 6)^(3/4) *)
Lemma power x : 1.79175 <= x <= 1.79177 -> 1.548 <= Rpower x (75 / 100) <= 1.549.
Proof.
  intro H. unfold Rpower. rewrite <- (exp_ln 1.548) at 1 by lra. rewrite <- (exp_ln 1.549) at 1 by lra.
  assert (A : INR 4 * ln 1.548 <= INR 3 * ln x).
  { rewrite <- !ln_pow by lra. apply ln_le; [apply pow_lt; lra|]. apply Rle_trans with (1.79175 ^ 3); [lra|]. apply pow_incr. lra. }
  assert (B : INR 3 * ln x <= INR 4 * ln 1.549).
  { rewrite <- !ln_pow by lra. apply ln_le; [apply pow_lt; lra|]. apply Rle_trans with (1.79177 ^ 3); [|lra]. apply pow_incr. lra. }
  replace (INR 4) with 4 in * by (cbn; lra). replace (INR 3) with 3 in * by (cbn; lra).
  split; apply exp_le; lra.
Qed.
Lemma correction : 0.9734 <= exp (61 / 1000 * ln 2 * (ln 2 - ln 3) * Rpower (ln 2 + ln 3) (75 / 100)) <= 0.9742.
Proof.
  pose proof ln_2 as L2. pose proof ln_3 as L3. pose proof (power (ln 2 + ln 3) ltac:(lra)) as P.
  set (p := Rpower (ln 2 + ln 3) (75 / 100)) in *. set (a := ln 2) in *. set (b := ln 3) in *. clearbody p a b.
  assert (Q : 0.2810 <= a * (b - a) <= 0.2811).
  { split; [apply Rle_trans with (0.69314717 * 0.40546508)|apply Rle_trans with (0.69314719 * 0.40546513)]; try lra; apply Rmult_le_compat; lra. }
  assert (T : 0.0265 <= 61 / 1000 * (a * (b - a)) * p <= 0.02657).
  { split; [apply Rle_trans with (61 / 1000 * 0.2810 * 1.548)|apply Rle_trans with (61 / 1000 * 0.2811 * 1.549)]; try lra; apply Rmult_le_compat; lra. }
  replace (61 / 1000 * a * (a - b) * p) with (- (61 / 1000 * (a * (b - a)) * p)) by ring.
  set (t := 61 / 1000 * (a * (b - a)) * p) in *. clearbody t. split.
  - pose proof (exp_ineq1_le (- t)). lra.
  - rewrite exp_Ropp. pose proof (exp_ineq1_le t) as E. apply Rle_trans with (/ (1 + t)); [apply Rinv_le_contravar; lra|].
    apply (Rmult_le_reg_l (1 + t)); [lra|]. rewrite Rinv_r by lra. lra.
Qed.
Theorem low_entropy_sub lg dl table : table_of le_digits table ->
  exists s t, le_score_counts (N := NumR lg) dl table 3 (block_sizes [0; 0]%Z) = Ok s /\
    le_score_counts (N := NumR lg) dl table 3 (block_sizes [0; 1]%Z) = Ok t /\ 1.004 <= exp s + exp t <= 1.006.
Proof.
  intro HT. destruct (table_near _ _ 2 160943791%Z HT eq_refl) as (x & Hx & B). cbn [IZR] in B.
  assert (HL : le_log_partition (N := NumR lg) table 2 = Ok x).
  { unfold le_log_partition. change ((2 <? 48)%Z) with true. change ((2 <? 0)%Z) with false. cbv iota. unfold vget.
    change (Z.to_nat 2) with 2%nat. now rewrite Hx. }
  assert (HP : le_postpred (N := NumR lg) dl 3 2 = Ok (ln (3 / 2) * (11 / 30))).
  { unfold le_postpred. change ((0 <? 2)%Z) with true. change ((2 <? 3)%Z) with true. unfold dassert_at.
    destruct (2 <=? dl)%nat; cbn [dassert obind]; f_equal; cbn [NumR nlog nof ndiv nmul nsub nlit]; f_equal; field. }
  set (d := 61 / 1000 * ln 2 * (ln 2 - ln 3) * Rpower (ln 2 + ln 3) (75 / 100)).
  exists (2 * ln 2 + d - x), (ln (3 / 2) * (11 / 30) + d - x). split; [|split].
  - change (block_sizes [0; 0]%Z) with [2%Z]. unfold le_score_counts. cbn [le_counts_loop].
    change (i32 (0 + 2)) with (Ok 2%Z). cbn [obind]. change ((1 <? 2)%Z) with true. cbv iota.
    change (2 <=? 3)%Z with true. change (2 =? 3)%Z with false. cbn [dassert obind]. rewrite HP. cbn [obind]. rewrite HL. cbn [obind].
    f_equal. unfold le_dataprob. cbn [NumR nlog nof nmul nadd nsub nlit npow length]. change ((Z.of_nat 1 - 1) mod 2 ^ 64)%Z with 0%Z.
    fold d. ring.
  - change (block_sizes [0; 1]%Z) with [1%Z; 1%Z]. unfold le_score_counts. cbn [le_counts_loop].
    change (i32 (0 + 1)) with (Ok 1%Z). cbn [obind]. change (i32 (1 + 1)) with (Ok 2%Z). cbn [obind]. change ((1 <? 1)%Z) with false. cbv iota.
    change (2 <=? 3)%Z with true. change (2 =? 3)%Z with false. cbn [dassert obind]. rewrite HP. cbn [obind]. rewrite HL. cbn [obind].
    f_equal. unfold le_dataprob. cbn [NumR nlog nof nmul nadd nsub nlit npow length]. change ((Z.of_nat 2 - 1) mod 2 ^ 64)%Z with 1%Z.
    fold d. ring.
  - replace (2 * ln 2 + d - x) with (ln 2 + ln 2 + d + - x) by ring. unfold Rminus. rewrite !exp_plus, exp_ln by lra.
    pose proof factor as F. pose proof correction as C. fold d in C. pose proof (exp_pos d) as Pd.
    assert (X : 0.19999 <= exp (- x) <= 0.20001).
    { assert (H5 : ln 5 - 0.00001 <= x <= ln 5 + 0.00001).
      { assert (K : check 160943791 [(1, 2); (4, 1)]%Z 5 = true) by (vm_compute; reflexivity). apply ln_near in K.
        apply Rabs_def2' in B. assert (P24 : (2 ^ 24 = 16777216)%R) by ring. rewrite P24 in B. lra. }
      replace (- x) with (- ln 5 + (ln 5 - x)) by ring. rewrite exp_plus, exp_Ropp, exp_ln by lra.
      assert (Y : Rabs (exp (ln 5 - x) - 1) <= 2 / 100000) by (apply (exp_near _ (15 / 1000000)); [apply Rabs_le|]; lra).
      apply Rabs_def2' in Y. lra. }
    set (e := exp d) in *. set (y := exp (- x)) in *. set (f := exp (ln (3 / 2) * (11 / 30))) in *. clearbody e y f.
    replace (2 * 2 * e * y + f * e * y) with ((4 + f) * (e * y)) by ring.
    assert (E : 0.9734 * 0.19999 <= e * y <= 0.9742 * 0.20001) by (split; apply Rmult_le_compat; lra).
    split; [apply Rle_trans with (5.16 * (0.9734 * 0.19999))|apply Rle_trans with (5.161 * (0.9742 * 0.20001))]; try lra; apply Rmult_le_compat; lra.
Qed.
