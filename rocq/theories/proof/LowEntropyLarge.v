(** The approximation of the log-partition function beyond the table. *)
From Coq Require Import List ZArith Reals Lra Lia.
From Verif.model Require Import Base Num NumR Sampler.
From Verif.spec Require Import PartitionSpec LabelSpec LawSpec LowEntropySpec.
From Verif.proof Require Import LnBounds LowEntropySum LowEntropyNormal.
Import ListNotations.
Local Open Scope Z_scope.

Lemma W_hd n : W n [] = hd 0 (snd (tab (powers n) n)).
Proof. rewrite tab_ok by lia. destruct n; reflexivity. Qed.
Lemma total_60_checked : check 24889389870 [(1, 359); (19, 1); (361, 1); (752357, 1)] (hd 0 (snd (tab (powers 60) 60))) = true.
Proof. vm_compute. reflexivity. Qed.
Definition z60 : Z := W 60 [].
Lemma z60_eq : W 60 [] = z60.
Proof. unfold z60. reflexivity. Qed.
Lemma total_60 : 1 <= z60 /\ (Rabs (ln (IZR z60) - IZR 24889389870 / 100000000) <= 1 / 100000000)%R.
Proof. pose proof total_60_checked as H. rewrite <- (W_hd 60) in H. exact (check_sound _ _ _ H). Qed.
Opaque z60.
Local Open Scope R_scope.
Lemma ln_total_60 : 248.8938 <= ln (IZR z60).
Proof. destruct total_60 as [_ H]. apply Rabs_def2' in H. lra. Qed.
Lemma ln_60 : ln 60 <= 4.09434458.
Proof.
  assert (K : check 409434456 [(1, 5); (2, 1); (4, 1)]%Z 60 = true) by (vm_compute; reflexivity).
  apply check_sound in K as [_ K]. apply Rabs_def2' in K. lra.
Qed.
Lemma pow_60 : Rpower 60 (-75 / 100) <= 0.0463863.
Proof.
  unfold Rpower. rewrite <- (exp_ln 0.0463863) by lra. assert (K : 4 * (-75 / 100 * ln 60) <= 4 * ln 0.0463863).
  { replace 4 with (INR 4) at 2 by (cbn; lra). rewrite <- ln_pow by lra.
    replace (4 * (-75 / 100 * ln 60)) with (- (INR 3 * ln 60)) by (cbn; lra). rewrite <- ln_pow, <- ln_Rinv by lra.
    left. apply ln_increasing; lra. }
  destruct (Req_dec (-75 / 100 * ln 60) (ln 0.0463863)) as [E|E]; [right; now f_equal|left; apply exp_increasing; lra].
Qed.
Lemma log_partition_60 lg table :
  exists lp, le_log_partition (N := NumR lg) table 60 = Ok lp /\ lp <= 248.883.
Proof.
  eexists. split; [reflexivity|]. cbn [NumR nof nlog nmul nadd nlit npow]. pose proof ln_60 as A. pose proof pow_60 as B.
  assert (C : 0 < Rpower 60 (-75 / 100)) by apply exp_pos.
  assert (D : 0 < ln 60) by (rewrite <- ln_1; apply ln_increasing; lra).
  apply Rle_trans with (245.6606748 * (1 + 28269584 / 100000000 * 0.0463863)); [|lra].
  apply Rmult_le_compat; lra.
Qed.
Theorem low_entropy_60 lg dl table L : enumerates L 60 ->
  exists f, (forall a, In a L -> le_score_counts (N := NumR lg) dl table 60 (block_sizes a) = Ok (f a)) /\
    101 / 100 <= rsum (map (fun a => exp (f a)) L).
Proof.
  intro HL. destruct (log_partition_60 lg table) as (lp & Hlp & B).
  exists (fun a => ln (low_entropy_weight (block_sizes a)) - lp). split.
  - intros a Ha. apply HL in Ha as [Hl Ha]. apply (score_ok lg dl table 60 a); auto. lia.
  - rewrite (total_exp L lp 60 HL). pose proof ln_total_60 as A. pose proof total_60 as [T _].
    rewrite z60_eq. assert (Pw : 0 < IZR z60) by (apply IZR_lt; lia).
    rewrite <- (exp_ln _ Pw). unfold Rdiv at 2. rewrite <- exp_Ropp, <- exp_plus.
    clear T Pw. revert A. generalize (ln (IZR z60)). intros x A.
    pose proof (exp_ineq1_le (x + - lp)). clear -H A B. lra.
Qed.
