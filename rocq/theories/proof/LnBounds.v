(** Rational bounds for logarithms from the series of ln((1+t)/(1-t)). *)
From Coq Require Import Reals Lra ZArith Lia List.
Import ListNotations.
Local Open Scope R_scope.

(** t + t^3/3 + ... + t^(2n-1)/(2n-1) *)
Fixpoint ath (n : nat) (t : R) : R :=
  match n with O => 0 | S m => ath m t + t ^ (2 * m + 1) / INR (2 * m + 1) end.

Fixpoint ath' (n : nat) (t : R) : R :=
  match n with O => 0 | S m => ath' m t + t ^ (2 * m) end.

Lemma ath_deriv n t : derivable_pt_lim (ath n) t (ath' n t).
Proof.
  induction n as [| n IH]; cbn [ath ath'].
  - apply derivable_pt_lim_const.
  - apply (derivable_pt_lim_plus (ath n) (fun t => t ^ (2 * n + 1) / INR (2 * n + 1))); [exact IH |].
    assert (INR (2 * n + 1) <> 0) as HN by (apply not_0_INR; lia).
    replace (t ^ (2 * n)) with (/ INR (2 * n + 1) * (INR (2 * n + 1) * t ^ pred (2 * n + 1))).
    2: { rewrite <- Rmult_assoc, Rinv_l, Rmult_1_l by assumption. f_equal. lia. }
    assert (derivable_pt_lim (mult_real_fct (/ INR (2 * n + 1)) (fun t => t ^ (2 * n + 1))) t
      (/ INR (2 * n + 1) * (INR (2 * n + 1) * t ^ pred (2 * n + 1)))) as D.
    { apply derivable_pt_lim_scal. apply derivable_pt_lim_pow. }
    intros eps He. destruct (D eps He) as (d & Hd). exists d. intros h H0 H1.
    specialize (Hd h H0 H1). unfold mult_real_fct in Hd. unfold Rdiv.
    rewrite (Rmult_comm ((t + h) ^ _)), (Rmult_comm (t ^ _)). exact Hd.
Qed.

Lemma ath'_closed n t : ath' n t * (1 - t ^ 2) = 1 - t ^ (2 * n).
Proof.
  induction n as [| n IH]; cbn [ath']; [cbn; ring |].
  rewrite Rmult_plus_distr_r, IH. replace (2 * S n)%nat with (2 * n + 2)%nat by lia.
  rewrite pow_add. ring.
Qed.

Definition lr (t : R) : R := ln (1 + t) - ln (1 - t).

Lemma lr_deriv t : -1 < t < 1 -> derivable_pt_lim lr t (/ (1 + t) + / (1 - t)).
Proof.
  intros H. unfold lr.
  replace (/ (1 + t) + / (1 - t)) with (/ (1 + t) * (0 + 1) - / (1 - t) * (0 - 1)) by (field; lra).
  apply (derivable_pt_lim_minus (fun t => ln (1 + t)) (fun t => ln (1 - t))).
  - apply (derivable_pt_lim_comp (fun t => 1 + t) ln).
    + apply (derivable_pt_lim_plus (fun _ => 1) (fun t => t)); [apply derivable_pt_lim_const | apply derivable_pt_lim_id].
    + apply derivable_pt_lim_ln. lra.
  - apply (derivable_pt_lim_comp (fun t => 1 - t) ln).
    + apply (derivable_pt_lim_minus (fun _ => 1) (fun t => t)); [apply derivable_pt_lim_const | apply derivable_pt_lim_id].
    + apply derivable_pt_lim_ln. lra.
Qed.

(** The remainder and its derivative. *)
Definition rem (n : nat) (t : R) : R := lr t - 2 * ath n t.

Lemma rem_deriv n t : 0 <= t < 1 -> derivable_pt_lim (rem n) t (2 * t ^ (2 * n) / (1 - t ^ 2)).
Proof.
  intros H. unfold rem.
  assert (1 - t ^ 2 <> 0) as N by (cbn; nra).
  replace (2 * t ^ (2 * n) / (1 - t ^ 2)) with ((/ (1 + t) + / (1 - t)) - 2 * ath' n t).
  - apply (derivable_pt_lim_minus lr (fun t => 2 * ath n t)); [apply lr_deriv; lra |].
    apply (derivable_pt_lim_scal (ath n) 2). apply ath_deriv.
  - assert (ath' n t = (1 - t ^ (2 * n)) / (1 - t ^ 2)) as ->
      by (rewrite <- (ath'_closed n t); field; exact N).
    replace (/ (1 + t) + / (1 - t)) with (2 / (1 - t ^ 2)) by (cbn; field; repeat split; cbn in N; nra).
    field. exact N.
Qed.

Lemma rem_0 n : rem n 0 = 0.
Proof.
  unfold rem, lr. rewrite Rplus_0_r, Rminus_0_r.
  assert (ath n 0 = 0) as ->; [| rewrite ln_1; ring].
  induction n as [| n IH]; cbn [ath]; [reflexivity |]. rewrite IH, pow_i by lia. unfold Rdiv. ring.
Qed.

Lemma rem_bounds n t : 0 < t < 1 ->
  0 <= rem n t <= 2 * t ^ (2 * n + 1) / (1 - t ^ 2).
Proof.
  intros H.
  destruct (MVT_cor2 (rem n) (fun s => 2 * s ^ (2 * n) / (1 - s ^ 2)) 0 t) as (c & E & Hc); [lra | |].
  - intros s Hs. apply rem_deriv. lra.
  - rewrite rem_0, !Rminus_0_r in E. rewrite E.
    assert (0 < 1 - t ^ 2) as D1 by (cbn; nra).
    assert (1 - t ^ 2 <= 1 - c ^ 2) as D2 by (cbn; nra).
    assert (0 <= c ^ (2 * n)) as P1 by (apply pow_le; lra).
    assert (c ^ (2 * n) <= t ^ (2 * n)) as P2 by (apply pow_incr; lra).
    assert (0 < / (1 - c ^ 2)) as I0 by (apply Rinv_0_lt_compat; lra).
    assert (/ (1 - c ^ 2) <= / (1 - t ^ 2)) as I1 by (apply Rinv_le_contravar; lra).
    split.
    + apply Rmult_le_pos; [| lra]. unfold Rdiv. apply Rmult_le_pos; lra.
    + replace (2 * t ^ (2 * n + 1) / (1 - t ^ 2)) with (2 * t ^ (2 * n) / (1 - t ^ 2) * t).
      2: { rewrite pow_add. cbn [pow]. field. cbn in D1. lra. }
      apply Rmult_le_compat_r; [lra |]. unfold Rdiv.
      apply Rmult_le_compat; lra.
Qed.

(** *** ln((k+1)/k) in fixed point *)
Local Open Scope Z_scope.
(** [scale] units make 1. *)
Definition scale : Z := 10 ^ 20.

(** Floors and ceilings of 2 * scale * t^(2j+1)/(2j+1) for t = 1/q. *)
Definition term_lo (q : Z) (j : nat) : Z :=
  2 * scale / (Z.of_nat (2 * j + 1) * q ^ Z.of_nat (2 * j + 1)).
Fixpoint sum_lo (q : Z) (n : nat) : Z :=
  match n with O => 0 | S m => sum_lo q m + term_lo q m end.
Fixpoint sum_hi (q : Z) (n : nat) : Z :=
  match n with O => 0 | S m => sum_hi q m + (term_lo q m + 1) end.
Definition rem_hi (q : Z) (n : nat) : Z :=
  2 * scale / ((q ^ 2 - 1) * q ^ (2 * Z.of_nat n - 1)) + 1.

Definition step_lo (k : Z) (n : nat) : Z := sum_lo (2 * k + 1) n.
Definition step_hi (k : Z) (n : nat) : Z := sum_hi (2 * k + 1) n + rem_hi (2 * k + 1) n.

Lemma div_lo a b : 0 < b -> (IZR (a / b) <= IZR a / IZR b)%R.
Proof.
  intros Hb. assert (0 < IZR b)%R by (apply IZR_lt; lia).
  apply Rmult_le_reg_r with (IZR b); [assumption |]. unfold Rdiv.
  rewrite Rmult_assoc, Rinv_l, Rmult_1_r by lra. rewrite <- mult_IZR. apply IZR_le.
  rewrite Z.mul_comm. apply Z.mul_div_le. exact Hb.
Qed.
Lemma div_hi a b : 0 < b -> (IZR a / IZR b <= IZR (a / b + 1))%R.
Proof.
  intros Hb. assert (0 < IZR b)%R by (apply IZR_lt; lia).
  apply Rmult_le_reg_r with (IZR b); [assumption |]. unfold Rdiv.
  rewrite Rmult_assoc, Rinv_l, Rmult_1_r by lra. rewrite <- mult_IZR. apply IZR_le.
  pose proof (Z.mul_succ_div_gt a b Hb). lia.
Qed.

Lemma term_eq q j : 1 < q ->
  (IZR (2 * scale) / IZR (Z.of_nat (2 * j + 1) * q ^ Z.of_nat (2 * j + 1)) =
   IZR scale * (2 * ((/ IZR q) ^ (2 * j + 1) / INR (2 * j + 1))))%R.
Proof.
  intros Hq. assert (0 < IZR q)%R by (apply IZR_lt; lia).
  rewrite !mult_IZR, <- INR_IZR_INZ, <- pow_IZR, pow_inv. field.
  split; [apply pow_nonzero; lra | apply not_0_INR; lia].
Qed.

Lemma pos_den q j : 1 < q -> 0 < Z.of_nat (2 * j + 1) * q ^ Z.of_nat (2 * j + 1).
Proof. intros H. apply Z.mul_pos_pos; [lia |]. apply Z.pow_pos_nonneg; lia. Qed.

Lemma sum_lo_ok q n : 1 < q -> (IZR (sum_lo q n) <= IZR scale * (2 * ath n (/ IZR q)))%R.
Proof.
  intros Hq. induction n as [| n IH]; cbn [sum_lo ath]; [lra |].
  rewrite plus_IZR. pose proof (div_lo (2 * scale) _ (pos_den q n Hq)) as D.
  rewrite term_eq in D by assumption. unfold term_lo. lra.
Qed.
Lemma sum_hi_ok q n : 1 < q -> (IZR scale * (2 * ath n (/ IZR q)) <= IZR (sum_hi q n))%R.
Proof.
  intros Hq. induction n as [| n IH]; cbn [sum_hi ath]; [lra |].
  rewrite plus_IZR. pose proof (div_hi (2 * scale) _ (pos_den q n Hq)) as D.
  rewrite term_eq in D by assumption. unfold term_lo. lra.
Qed.
Lemma rem_hi_ok q n : 1 < q -> (0 < n)%nat ->
  (IZR scale * (2 * (/ IZR q) ^ (2 * n + 1) / (1 - (/ IZR q) ^ 2)) <= IZR (rem_hi q n))%R.
Proof.
  intros Hq Hn. unfold rem_hi.
  assert (0 < IZR q)%R by (apply IZR_lt; lia). assert (1 < IZR q)%R by (apply IZR_lt; lia).
  assert (0 < (q ^ 2 - 1) * q ^ (2 * Z.of_nat n - 1)) as P.
  { apply Z.mul_pos_pos; [nia |]. apply Z.pow_pos_nonneg; lia. }
  pose proof (div_hi (2 * scale) _ P) as D. refine (Rle_trans _ _ _ (Req_le _ _ _) D).
  rewrite !mult_IZR, minus_IZR.
  replace (2 * Z.of_nat n - 1) with (Z.of_nat (2 * n - 1)) by lia. rewrite <- pow_IZR.
  change (q ^ 2) with (q ^ Z.of_nat 2). rewrite <- pow_IZR, !pow_inv.
  replace (2 * n + 1)%nat with (2 * n - 1 + 2)%nat by lia. rewrite pow_add.
  field. repeat split; try (apply pow_nonzero); cbn; try lra; nra.
Qed.

Lemma step_ok k n : 1 <= k -> (0 < n)%nat ->
  (IZR (step_lo k n) <= IZR scale * (ln (IZR (k + 1)) - ln (IZR k)) <= IZR (step_hi k n))%R.
Proof.
  intros Hk Hn. set (q := 2 * k + 1).
  assert (1 <= IZR k)%R by (apply (IZR_le 1); lia).
  assert (IZR q = 2 * IZR k + 1)%R as Eq by (unfold q; rewrite plus_IZR, mult_IZR; reflexivity).
  assert (0 < / IZR q)%R as Q0 by (apply Rinv_0_lt_compat; lra).
  assert (/ IZR q < 1)%R as Q1 by (rewrite <- Rinv_1; apply Rinv_lt_contravar; lra).
  assert (ln (IZR (k + 1)) - ln (IZR k) = lr (/ IZR q))%R as EL.
  { unfold lr. rewrite plus_IZR.
    replace (1 + / IZR q)%R with ((IZR k + 1) * (2 * / IZR q))%R by (rewrite Eq; field; lra).
    replace (1 - / IZR q)%R with (IZR k * (2 * / IZR q))%R by (rewrite Eq; field; lra).
    rewrite !ln_mult by lra. lra. }
  destruct (rem_bounds n (/ IZR q) (conj Q0 Q1)) as [B1 B2]. unfold rem in B1, B2.
  pose proof (sum_lo_ok q n ltac:(unfold q; lia)) as S1.
  pose proof (sum_hi_ok q n ltac:(unfold q; lia)) as S2.
  pose proof (rem_hi_ok q n ltac:(unfold q; lia) Hn) as S3.
  rewrite EL. unfold step_lo, step_hi. fold q. rewrite plus_IZR.
  assert (0 < IZR scale)%R by (apply IZR_lt; reflexivity).
  split.
  - apply Rle_trans with (1 := S1). apply Rmult_le_compat_l; lra.
  - apply Rle_trans with (IZR scale * (2 * ath n (/ IZR q)) +
      IZR scale * (2 * (/ IZR q) ^ (2 * n + 1) / (1 - (/ IZR q) ^ 2)))%R; [| lra].
    rewrite <- Rmult_plus_distr_l. apply Rmult_le_compat_l; lra.
Qed.

(** ln 2 = ln 2 - ln 1 to 18 digits. *)
Lemma ln2_lo : (0.693147180559945309 <= ln 2)%R.
Proof.
  destruct (step_ok 1 20 ltac:(lia) ltac:(lia)) as [A _]. change (IZR (1 + 1)) with 2%R in A.
  rewrite ln_1, Rminus_0_r in A.
  assert (69314718055994530900 <= step_lo 1 20) as B by (vm_compute; discriminate).
  apply IZR_le in B. unfold scale in A. change (10 ^ 20) with 100000000000000000000 in A. lra.
Qed.
Lemma ln2_hi : (ln 2 <= 0.693147180559945310)%R.
Proof.
  destruct (step_ok 1 20 ltac:(lia) ltac:(lia)) as [_ A]. change (IZR (1 + 1)) with 2%R in A.
  rewrite ln_1, Rminus_0_r in A.
  assert (step_hi 1 20 <= 69314718055994531000) as B by (vm_compute; discriminate).
  apply IZR_le in B. unfold scale in A. change (10 ^ 20) with 100000000000000000000 in A. lra.
Qed.
