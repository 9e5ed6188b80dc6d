(** Accuracy of the mean and variance of NormalInverseChiSq in single precision when groups are merged. *)
From Coq Require Import Reals Lra Lia Psatz Permutation List.
From Flocq Require Import Core BinarySingleNaN Binary Bits.
From Verif.model Require Import Base Num FastExp FloatNum Component HistoryRun NICH.
From Verif.spec Require Import FlavorSpec GaussSpec GrowSpec.
From Verif.proof Require Import BaseProof NICHProof FastExpProof FlavorProof FloatScoresProof FloatNichProof FloatNichAccuracy FloatNichPost.
Import ListNotations.
Local Open Scope R_scope.

Lemma abs_mul_le a b x y : Rabs a <= x -> Rabs b <= y -> Rabs (a * b) <= x * y.
Proof. intros. rewrite Rabs_mult. apply Rmult_le_compat; auto using Rabs_pos. Qed.
Lemma abs_tri a b x y : Rabs a <= x -> Rabs b <= y -> Rabs (a + b) <= x + y.
Proof. intros. eapply Rle_trans; [apply Rabs_triang |]. lra. Qed.

Section Err.
  Variables (M eta : R).
  Hypothesis HM : 0 < M.
  Hypothesis He : 0 < eta.
  Hypothesis He0 : eta <= u24 / 1000000000000.
  Hypothesis He1 : eta <= u24 * M / 1000000000.
  Hypothesis He2 : eta <= u24 * (M * M) / 100.
  Let W := u24 * M.

  (** One more value, with errors as merges leave them. *)
  Lemma var_add_err k m m' v X Y D e p t t' T B : 2 <= k <= 1048576 ->
    Rabs (v - m) <= 2 * M -> Rabs (v - m') <= 2 * M -> Rabs Y <= 2 * M ->
    Rabs (v - m - X) <= 5 * (k - 1) * W -> Rabs (v - m' - Y) <= 5 * k * W ->
    Rabs (D - (v - m)) <= u24 * Rabs (v - m) + eta -> Rabs (e - (v - m')) <= u24 * Rabs (v - m') + eta ->
    Rabs (p - D * e) <= u24 * Rabs (D * e) + eta -> Rabs (t' - (t + p)) <= u24 * Rabs (t + p) + eta ->
    0 <= t <= (k - 1) * (3 * (M * M)) -> Rabs (t - T) <= B ->
    Rabs (t' - (T + X * Y)) <= B + (50 * k - 25) * (M * W).
  Proof using All.
    intros Hk Hvm Hvm' HY HX HY' HD He' Hp Ht' Ht HT.
    assert (HW : W = / 16777216 * M) by reflexivity. assert (Hu : u24 = / 16777216) by reflexivity. rewrite Hu in *.
    assert (0 < W) as W0 by lra.
    assert (Rabs (D - (v - m)) <= (21 / 10) * W) as D1 by lra.
    assert (Rabs (e - (v - m')) <= (21 / 10) * W) as E1 by lra.
    assert (Rabs D <= 2001 / 1000 * M) as D2 by (apply Rabs_le; apply Rabs_le_inv in D1, Hvm; lra).
    assert (Rabs e <= 2001 / 1000 * M) as E2 by (apply Rabs_le; apply Rabs_le_inv in E1, Hvm'; lra).
    assert (0 < M * M) as MM by (now apply Rmult_lt_0_compat).
    assert (Rabs (D * e) <= 401 / 100 * (M * M)) as DE
      by (eapply Rle_trans; [apply (abs_mul_le _ _ _ _ D2 E2) |]; lra).
    assert (M * W = / 16777216 * (M * M)) as EMW by (rewrite HW; ring).
    assert (0 < M * W) as MW by (now apply Rmult_lt_0_compat).
    assert (Rabs (p - D * e) <= 5 * (M * W)) as P1 by lra.
    assert (Rabs p <= 402 / 100 * (M * M)) as P2 by (apply Rabs_le; apply Rabs_le_inv in P1, DE; lra).
    assert (Rabs (t + p) <= (3 * k + 2) * (M * M)) as TP by (apply Rabs_le; apply Rabs_le_inv in P2; lra).
    assert (Rabs (D * (e - Y)) <= (10005 / 1000 * k + 5) * (M * W)) as B1.
    { assert (Rabs (e - Y) <= 5 * k * W + 21 / 10 * W) as Z1.
      { replace (e - Y) with ((e - (v - m')) + (v - m' - Y)) by ring. pose proof (abs_tri _ _ _ _ E1 HY'). lra. }
      eapply Rle_trans; [apply (abs_mul_le _ _ _ _ D2 Z1) |].
      apply Rle_trans with ((2001 / 1000) * (5 * k + 21 / 10) * (M * W)); [right; ring |].
      apply Rmult_le_compat_r; lra. }
    assert (Rabs (Y * (D - X)) <= (10 * k - 5) * (M * W)) as B2.
    { assert (Rabs (D - X) <= 5 * (k - 1) * W + 21 / 10 * W) as Z1.
      { replace (D - X) with ((D - (v - m)) + (v - m - X)) by ring. pose proof (abs_tri _ _ _ _ D1 HX). lra. }
      eapply Rle_trans; [apply (abs_mul_le _ _ _ _ HY Z1) |].
      apply Rle_trans with (2 * (5 * (k - 1) + 21 / 10) * (M * W)); [right; ring |].
      apply Rmult_le_compat_r; lra. }
    assert (/ 16777216 * Rabs (t + p) <= (3 * k + 2) * (M * W)) as B3.
    { apply Rle_trans with (/ 16777216 * ((3 * k + 2) * (M * M))); [apply Rmult_le_compat_l; lra |]. right. rewrite EMW. ring. }
    replace (t' - (T + X * Y)) with ((t' - (t + p)) + (p - D * e) + (D * (e - Y)) + Y * (D - X) + (t - T)) by ring.
    assert (2 * (M * W) <= k * (M * W)) as K1 by (apply Rmult_le_compat_r; lra).
    assert (eta <= M * W / 100) as K2 by lra.
    apply Rabs_le. apply Rabs_le_inv in Ht', P1, B1, B2, HT. lra.
  Qed.

  Section Merge.
    Variables (a b m1 m2 D s q m' : R).
    Hypothesis Ha : 1 <= a.
    Hypothesis Hb : 1 <= b.
    Let n := a + b.
    Hypothesis Hn : n <= 1048576.
    Hypothesis Hm1 : Rabs m1 <= M.
    Hypothesis Hm2 : Rabs m2 <= M.
    Hypothesis HD : Rabs (D - (m2 - m1)) <= u24 * Rabs (m2 - m1) + eta.
    Hypothesis Hs : Rabs (s - b / n) <= u24 * Rabs (b / n) + eta.

    Lemma ab_ge : a <= a * b /\ b <= a * b /\ 1 <= a * b /\ n <= 2 * (a * b).
    Proof using All. unfold n. repeat split; nra. Qed.

    Lemma D_le : Rabs (D - (m2 - m1)) <= 21 / 10 * W /\ Rabs D <= 2001 / 1000 * M /\ Rabs (m2 - m1) <= 2 * M.
    Proof using All.
      assert (HW : W = / 16777216 * M) by reflexivity. assert (Hu : u24 = / 16777216) by reflexivity. rewrite Hu in *.
      assert (Rabs (m2 - m1) <= 2 * M) as V by (apply Rabs_le; apply Rabs_le_inv in Hm1, Hm2; lra).
      assert (Rabs (D - (m2 - m1)) <= 21 / 10 * W) as A by lra.
      split; [exact A |]. split; [| exact V]. apply Rabs_le. apply Rabs_le_inv in A, V. lra.
    Qed.

    Lemma s_le : Rabs (n * (s - b / n)) <= 10001 / 10000 * u24 * b /\ Rabs (n * s) <= 10001 / 10000 * b.
    Proof using All.
      assert (Hu : u24 = / 16777216) by reflexivity. rewrite Hu in *.
      assert (Rabs (n * (s - b / n)) <= 10001 / 10000 * / 16777216 * b) as A.
      { rewrite Rabs_mult, (Rabs_pos_eq n) by (unfold n; lra).
        apply Rle_trans with (n * (/ 16777216 * Rabs (b / n) + eta)); [apply Rmult_le_compat_l; [unfold n; lra | exact Hs] |].
        assert (n * Rabs (b / n) = b) as E.
        { rewrite Rabs_pos_eq by (apply Rle_mult_inv_pos; unfold n; lra). field. unfold n. lra. }
        rewrite Rmult_plus_distr_l. replace (n * (/ 16777216 * Rabs (b / n))) with (/ 16777216 * (n * Rabs (b / n))) by ring.
        rewrite E. assert (n * eta <= 1048576 * eta) by (apply Rmult_le_compat_r; lra). lra. }
      split; [exact A |]. replace (n * s) with (n * (s - b / n) + b) by (field; unfold n; lra).
      apply Rabs_le. apply Rabs_le_inv in A. lra.
    Qed.

    Lemma mean_merge_err S1 S2 A1 A2 : Rabs (q - s * D) <= u24 * Rabs (s * D) + eta ->
      Rabs (m' - (m1 + q)) <= u24 * Rabs (m1 + q) + eta -> Rabs m' <= M ->
      Rabs (a * m1 - S1) <= A1 -> Rabs (b * m2 - S2) <= A2 ->
      Rabs (n * m' - (S1 + S2)) <= A1 + A2 + 10 * (a * b) * W.
    Proof using All.
      intros Hq Hm' Hmq H1 H2. destruct D_le as (D1 & D2 & D3). destruct s_le as [G1 G2]. destruct ab_ge as (K1 & K2 & K3 & K4).
      assert (HW : W = / 16777216 * M) by reflexivity. assert (Hu : u24 = / 16777216) by reflexivity. rewrite Hu in *.
      assert (0 < W) as W0 by lra.
      assert (n0 : 0 < n) by (unfold n; lra).
      assert (Rabs (m1 + q) <= M + M / 8000000) as Q0.
      { assert (Rabs (m1 + q) <= Rabs m' + Rabs (m' - (m1 + q))) as X.
        { replace (m1 + q) with (m' + - (m' - (m1 + q))) at 1 by ring. eapply Rle_trans; [apply Rabs_triang |]. rewrite Rabs_Ropp. lra. }
        lra. }
      assert (n * eta <= 1048576 * eta) as N1 by (apply Rmult_le_compat_r; lra).
      assert (Rabs (n * (m' - (m1 + q))) <= n * W + W / 2) as E1.
      { rewrite Rabs_mult, (Rabs_pos_eq n) by lra. apply Rle_trans with (n * (W + W / 8000000 + eta)).
        - apply Rmult_le_compat_l; lra.
        - assert (n * W <= 1048576 * W) by (apply Rmult_le_compat_r; lra). lra. }
      assert (Rabs (n * s * D) <= 202 / 100 * b * M) as E2.
      { eapply Rle_trans; [apply (abs_mul_le _ _ _ _ G2 D2) |].
        apply Rle_trans with ((10001 / 10000) * (2001 / 1000) * (b * M)); [right; ring |].
        assert (0 < b * M) by (apply Rmult_lt_0_compat; lra). lra. }
      assert (Rabs (n * (q - s * D)) <= 203 / 100 * b * W) as E3.
      { rewrite Rabs_mult, (Rabs_pos_eq n) by lra. apply Rle_trans with (n * (/ 16777216 * Rabs (s * D) + eta)).
        - apply Rmult_le_compat_l; lra.
        - replace (n * (/ 16777216 * Rabs (s * D) + eta)) with (/ 16777216 * (n * Rabs (s * D)) + n * eta) by ring.
          replace (n * Rabs (s * D)) with (Rabs (n * s * D)) by (rewrite Rmult_assoc, (Rabs_mult n), (Rabs_pos_eq n) by lra; reflexivity).
          assert (1 * W <= b * W) by (apply Rmult_le_compat_r; lra).
          assert (b * W = / 16777216 * (b * M)) by (rewrite HW; ring). lra. }
      assert (Rabs (n * (s - b / n) * D) <= 202 / 100 * b * W) as E4.
      { eapply Rle_trans; [apply (abs_mul_le _ _ _ _ G1 D2) |].
        apply Rle_trans with ((10001 / 10000) * (2001 / 1000) * (b * W)); [right; rewrite HW; ring |].
        assert (0 < b * W) by (apply Rmult_lt_0_compat; lra). lra. }
      assert (Rabs (b * (D - (m2 - m1))) <= b * (21 / 10 * W)) as E5.
      { rewrite Rabs_mult, (Rabs_pos_eq b) by lra. apply Rmult_le_compat_l; lra. }
      replace (n * m' - (S1 + S2)) with (n * (m' - (m1 + q)) + n * (q - s * D) + n * (s - b / n) * D + b * (D - (m2 - m1))
        + (a * m1 - S1) + (b * m2 - S2)) by (unfold n; field; unfold n in n0; lra).
      assert (a * W <= a * b * W) as X1 by (apply Rmult_le_compat_r; lra).
      assert (b * W <= a * b * W) as X2 by (apply Rmult_le_compat_r; lra).
      assert (1 * W <= a * b * W) as X3 by (apply Rmult_le_compat_r; lra).
      assert (n * W = a * W + b * W) as X4 by (unfold n; ring).
      apply Rabs_le. apply Rabs_le_inv in E1, E3, E4, E5, H1, H2. lra.
    Qed.

    Lemma var_merge_err d2 c p w t1 t2 t' mu1 mu2 T1 T2 B1 B2 :
      Rabs (d2 - D * D) <= u24 * Rabs (D * D) + eta -> Rabs (c - a * s) <= u24 * Rabs (a * s) + eta ->
      Rabs (p - c * d2) <= u24 * Rabs (c * d2) + eta -> Rabs (w - (t2 + p)) <= u24 * Rabs (t2 + p) + eta ->
      Rabs (t' - (t1 + w)) <= u24 * Rabs (t1 + w) + eta ->
      Rabs (m1 - mu1) <= 5 * a * W -> Rabs (m2 - mu2) <= 5 * b * W -> Rabs mu1 <= M -> Rabs mu2 <= M ->
      0 <= t1 <= a * (3 * (M * M)) -> 0 <= t2 <= b * (3 * (M * M)) -> Rabs (t1 - T1) <= B1 -> Rabs (t2 - T2) <= B2 ->
      Rabs (c * d2) <= 5 * n * (M * M) /\ Rabs p <= 5 * n * (M * M) /\ Rabs w <= 10 * n * (M * M) /\
      Rabs (t' - (T1 + T2 + a * b / n * ((mu2 - mu1) * (mu2 - mu1)))) <= B1 + B2 + 50 * (a * b) * (M * W).
    Proof using All.
      intros Hd2 Hc Hp Hw Ht' U1 U2 U3 U4 Ht1 Ht2 HT1 HT2.
      destruct D_le as (D1 & D2 & D3). destruct s_le as [G1 G2]. destruct ab_ge as (K1 & K2 & K3 & K4).
      assert (HW : W = / 16777216 * M) by reflexivity. assert (Hu : u24 = / 16777216) by reflexivity. rewrite Hu in *.
      assert (0 < W) as W0 by lra. assert (n0 : 0 < n) by (unfold n; lra).
      assert (0 < M * M) as MM by (now apply Rmult_lt_0_compat).
      assert (M * W = / 16777216 * (M * M)) as EMW by (rewrite HW; ring).
      assert (0 < M * W) as MW by (now apply Rmult_lt_0_compat).
      assert (eta <= M * W / 100) as HeW by lra.
      set (h := a * b / n) in *.
      assert (h0 : 1 / 2 <= h).
      { unfold h. apply Rmult_le_reg_r with n; [exact n0 |]. replace (a * b / n * n) with (a * b) by (field; lra). lra. }
      assert (h1 : h <= n / 4).
      { unfold h. apply Rmult_le_reg_r with n; [exact n0 |]. replace (a * b / n * n) with (a * b) by (field; lra).
        unfold n. pose proof (Rle_0_sqr (a - b)) as X. unfold Rsqr in X. lra. }
      assert (Rabs (D * D) <= 401 / 100 * (M * M)) as DD
        by (eapply Rle_trans; [apply (abs_mul_le _ _ _ _ D2 D2) |]; lra).
      assert (Rabs (D * D - (m2 - m1) * (m2 - m1)) <= 85 / 10 * (M * W)) as d0.
      { replace (D * D - (m2 - m1) * (m2 - m1)) with ((D + (m2 - m1)) * (D - (m2 - m1))) by ring.
        eapply Rle_trans; [apply (abs_mul_le _ _ _ _ (abs_tri _ _ _ _ D2 D3) D1) |].
        apply Rle_trans with ((4001 / 1000 * (21 / 10)) * (M * W)); [right; field | apply Rmult_le_compat_r; lra]. }
      assert (Rabs (d2 - (m2 - m1) * (m2 - m1)) <= 126 / 10 * (M * W)) as d3
        by (apply Rabs_le; apply Rabs_le_inv in d0, Hd2; lra).
      assert (Rabs d2 <= 402 / 100 * (M * M)) as d4 by (pose proof (Rabs_le_inv _ _ DD); apply Rabs_le; apply Rabs_le_inv in Hd2; lra).
      assert (Rabs (a * s - h) <= 10001 / 10000 * / 16777216 * h) as c0.
      { replace (a * s - h) with (a / n * (n * (s - b / n))) by (unfold h; field; lra).
        rewrite Rabs_mult, (Rabs_pos_eq (a / n)) by (apply Rle_mult_inv_pos; lra).
        apply Rle_trans with (a / n * (10001 / 10000 * / 16777216 * b)).
        - apply Rmult_le_compat_l; [apply Rle_mult_inv_pos; lra | exact G1].
        - right. unfold h. field. lra. }
      assert (Rabs (a * s) <= 10001 / 10000 * h) as c1 by (apply Rabs_le; apply Rabs_le_inv in c0; lra).
      assert (Rabs (c - h) <= 201 / 100 * / 16777216 * h) as c2 by (apply Rabs_le; apply Rabs_le_inv in c0, Hc; lra).
      assert (Rabs c <= 1001 / 1000 * h) as c3 by (apply Rabs_le; apply Rabs_le_inv in c2; lra).
      assert (0 < h * (M * M)) as hMM by (apply Rmult_lt_0_compat; lra).
      assert (0 < h * (M * W)) as hMW by (apply Rmult_lt_0_compat; lra).
      assert (Rabs (c * d2) <= 403 / 100 * (h * (M * M))) as p0.
      { eapply Rle_trans; [apply (abs_mul_le _ _ _ _ c3 d4) |]. lra. }
      assert (Rabs (c * d2 - h * ((m2 - m1) * (m2 - m1))) <= 21 * (h * (M * W))) as p1.
      { replace (c * d2 - h * ((m2 - m1) * (m2 - m1))) with ((c - h) * d2 + h * (d2 - (m2 - m1) * (m2 - m1))) by ring.
        assert (Rabs h <= h) as hh by (rewrite Rabs_pos_eq; lra).
        pose proof (abs_mul_le _ _ _ _ c2 d4) as Z1. pose proof (abs_mul_le _ _ _ _ hh d3) as Z2.
        eapply Rle_trans; [apply (abs_tri _ _ _ _ Z1 Z2) |]. rewrite EMW. lra. }
      assert (1 / 2 * (M * W) <= h * (M * W)) as hW by (apply Rmult_le_compat_r; lra).
      assert (h * (M * W) = / 16777216 * (h * (M * M))) as EhW by (rewrite EMW; ring).
      assert (Rabs (p - h * ((m2 - m1) * (m2 - m1))) <= 251 / 10 * (h * (M * W))) as p2
        by (apply Rabs_le; apply Rabs_le_inv in Hp, p1; lra).
      assert (Rabs p <= 404 / 100 * (h * (M * M))) as p3 by (pose proof (Rabs_le_inv _ _ p0); apply Rabs_le; apply Rabs_le_inv in Hp; lra).
      assert (h * (M * M) <= n / 4 * (M * M)) as h2 by (apply Rmult_le_compat_r; lra).
      assert (h * (M * W) <= n / 4 * (M * W)) as h3 by (apply Rmult_le_compat_r; lra).
      assert (b * (M * M) <= n * (M * M)) as b2 by (apply Rmult_le_compat_r; unfold n; lra).
      assert (n * (M * M) = a * (M * M) + b * (M * M)) as nM by (unfold n; ring).
      assert (0 <= a * (M * M)) as aM by (apply Rmult_le_pos; lra).
      assert (1 * (M * M) <= b * (M * M)) as bM by (apply Rmult_le_compat_r; lra).
      assert (Rabs (t2 + p) <= 3 * (b * (M * M)) + 102 / 100 * (n * (M * M))) as w0
        by (apply Rabs_le; apply Rabs_le_inv in p3; lra).
      assert (Rabs w <= 3 * (b * (M * M)) + 103 / 100 * (n * (M * M))) as w1
        by (pose proof (Rabs_le_inv _ _ w0); apply Rabs_le; apply Rabs_le_inv in Hw; lra).
      assert (Rabs (t1 + w) <= 404 / 100 * (n * (M * M))) as w2
        by (apply Rabs_le; apply Rabs_le_inv in w1; lra).
      split; [lra |]. split; [lra |]. split; [lra |].
      assert (Rabs (h * ((m2 - m1) * (m2 - m1)) - h * ((mu2 - mu1) * (mu2 - mu1))) <= 20 * (a * b) * (M * W)) as q0.
      { replace (h * ((m2 - m1) * (m2 - m1)) - h * ((mu2 - mu1) * (mu2 - mu1)))
          with (h * (((m2 - m1) + (mu2 - mu1)) * ((m2 - mu2) + (mu1 - m1)))) by ring.
        assert (Rabs (mu2 - mu1) <= 2 * M) as q1 by (apply Rabs_le; apply Rabs_le_inv in U3, U4; lra).
        assert (Rabs (mu1 - m1) <= 5 * a * W) as q2 by (rewrite Rabs_minus_sym; exact U1).
        assert (Rabs h <= h) as hh by (rewrite Rabs_pos_eq; lra).
        eapply Rle_trans; [apply (abs_mul_le _ _ _ _ hh (abs_mul_le _ _ _ _ (abs_tri _ _ _ _ D3 q1) (abs_tri _ _ _ _ U2 q2))) |].
        right. unfold h, n. field. unfold n in n0. lra. }
      assert (n * (M * W) = / 16777216 * (n * (M * M))) as EnW by (rewrite EMW; ring).
      assert (b * (M * W) = / 16777216 * (b * (M * M))) as EbW by (rewrite EMW; ring).
      assert (n * (M * W) <= 2 * (a * b) * (M * W)) as X1 by (apply Rmult_le_compat_r; lra).
      assert (b * (M * W) <= a * b * (M * W)) as X2 by (apply Rmult_le_compat_r; lra).
      assert (1 * (M * W) <= a * b * (M * W)) as X3 by (apply Rmult_le_compat_r; lra).
      replace (t' - (T1 + T2 + h * ((mu2 - mu1) * (mu2 - mu1)))) with ((t' - (t1 + w)) + (w - (t2 + p))
        + (p - h * ((m2 - m1) * (m2 - m1))) + (h * ((m2 - m1) * (m2 - m1)) - h * ((mu2 - mu1) * (mu2 - mu1)))
        + (t1 - T1) + (t2 - T2)) by ring.
      apply Rabs_le. apply Rabs_le_inv in Ht', Hw, p2, q0, HT1, HT2. lra.
    Qed.
  End Merge.
End Err.

(** ** The merged mean lies between the two means *)
Lemma step_s x D q s : 0 <= x -> generic_format radix2 (SpecFloat.fexp 24 128) x \/ bpow radix2 (-125) <= x ->
  D = rnd x -> 0 <= s <= 1 - / 2097152 -> q = rnd (s * D) -> 0 <= q <= x.
Proof.
  intros Hx HX -> Hs ->. pose proof (rnd_pos x Hx) as HD.
  assert (0 <= s * rnd x <= (1 - / 2097152) * rnd x) as [Q0 Q1]
    by (split; [apply Rmult_le_pos | apply Rmult_le_compat_r]; lra).
  split; [now apply rnd_pos |].
  destruct HX as [HX | HX].
  - assert (rnd x = x) as E by (apply round_generic; [apply valid_rnd_N | exact HX]).
    rewrite E in *. rewrite <- E at 2. apply rnd_le. lra.
  - apply Rle_trans with (rnd ((1 - / 2097152) * rnd x)); [now apply rnd_le |].
    pose proof (rnd_err x) as E1. pose proof (rnd_err ((1 - / 2097152) * rnd x)) as E2.
    rewrite (Rabs_pos_eq x) in E1 by exact Hx. rewrite (Rabs_pos_eq ((1 - / 2097152) * rnd x)) in E2 by lra.
    apply Rabs_le_inv in E1, E2. unfold u24 in *.
    assert (eta32 <= x / 33554432) as He.
    { unfold eta32. replace (-150)%Z with (-125 + -25)%Z by reflexivity. rewrite bpow_plus.
      change (bpow radix2 (-25)) with (/ 33554432). lra. }
    lra.
Qed.

Lemma merge_between v m s : 0 <= s <= 1 - / 2097152 -> let D := rnd (b2r v - b2r m) in let m' := rnd (b2r m + rnd (s * D)) in
  (b2r m <= b2r v -> b2r m <= m' <= b2r v) /\ (b2r v <= b2r m -> b2r v <= m' <= b2r m).
Proof.
  intros HC D m'. split; intros H.
  - assert (0 <= rnd (s * D) <= b2r v - b2r m) as Q.
    { apply (step_s (b2r v - b2r m) D _ s); [lra | | reflexivity | exact HC | reflexivity].
      destruct (diff_format v m) as [HF | HF]; [now left | right; now rewrite Rabs_pos_eq in HF by lra]. }
    unfold m'. split; [rewrite <- (rnd_same m) at 1 | rewrite <- (rnd_same v)]; apply rnd_le; lra.
  - assert (0 <= rnd (s * - D) <= b2r m - b2r v) as Q.
    { apply (step_s (b2r m - b2r v) (- D) _ s); [lra | | | exact HC | reflexivity].
      - destruct (diff_format m v) as [HF | HF]; [now left | right; now rewrite Rabs_pos_eq in HF by lra].
      - unfold D. rewrite <- rnd_opp. f_equal. ring. }
    replace (s * - D) with (- (s * D)) in Q by ring. rewrite rnd_opp in Q.
    unfold m'. split; [rewrite <- (rnd_same v) | rewrite <- (rnd_same m) at 2]; apply rnd_le; lra.
Qed.

(** ** Sums over two lists *)
Lemma ssd_app xs ys : xs <> [] -> ys <> [] -> ssd (ys ++ xs) = ssd xs + ssd ys
  + INR (length xs) * INR (length ys) / (INR (length xs) + INR (length ys))
    * ((rsum ys / INR (length ys) - rsum xs / INR (length xs)) * (rsum ys / INR (length ys) - rsum xs / INR (length xs))).
Proof.
  intros Hx Hy. pose proof (len_pos xs Hx) as P. pose proof (len_pos ys Hy) as Q.
  rewrite (ssd_alt xs Hx), (ssd_alt ys Hy), (ssd_alt (ys ++ xs)) by (destruct ys; [congruence | discriminate]).
  rewrite app_length, plus_INR, rsum_app. unfold rsq. rewrite map_app, rsum_app. unfold Rsqr. field. lra.
Qed.
Lemma ssd_le M xs : 0 <= M -> List.Forall (fun x => Rabs x <= M) xs -> 0 <= ssd xs <= INR (length xs) * (M * M).
Proof.
  intros H0 H. split.
  - unfold ssd. generalize (rmean xs). intros c. clear H. induction xs as [|x xs IH]; cbn; [lra |].
    pose proof (Rle_0_sqr (x - c)). lra.
  - destruct xs as [|x0 xs0]; [cbn; lra |]. set (xs := x0 :: xs0) in *.
    assert (xs <> []) as NE by discriminate. rewrite ssd_alt by exact NE. pose proof (len_pos xs NE) as P.
    assert (0 <= (rsum xs)² / INR (length xs)) by (apply Rle_mult_inv_pos; [apply Rle_0_sqr | exact P]).
    assert (rsq xs <= INR (length xs) * (M * M)); [| lra].
    clear - H H0. unfold rsq. induction H as [|x l Hx H IH]; [cbn; lra |].
    cbn [map rsum length]. rewrite S_INR.
    assert (x² <= M * M). { change (M * M) with (M²). apply Rsqr_le_abs_1. rewrite (Rabs_pos_eq M) by exact H0. exact Hx. }
    lra.
Qed.
Lemma mean_in M xs : 0 < M -> xs <> [] -> List.Forall (fun x => Rabs x <= M) xs -> Rabs (rsum xs / INR (length xs)) <= M.
Proof.
  intros H0 NE H. pose proof (len_pos xs NE) as P. unfold Rdiv. rewrite Rabs_mult, Rabs_inv, (Rabs_pos_eq (INR _)) by lra.
  apply Rmult_le_reg_l with (INR (length xs)); [exact P |].
  replace (INR (length xs) * (Rabs (rsum xs) * / INR (length xs))) with (Rabs (rsum xs)) by (field; lra).
  apply rsum_bound; [lra | exact H].
Qed.
Lemma mean_off n m S A : 0 < n -> Rabs (n * m - S) <= n * A -> Rabs (m - S / n) <= A.
Proof.
  intros H0 H. replace (m - S / n) with (/ n * (n * m - S)) by (field; lra).
  rewrite Rabs_mult, Rabs_inv, (Rabs_pos_eq n) by lra. apply Rmult_le_reg_l with n; [exact H0 |].
  rewrite <- Rmult_assoc, Rinv_r, Rmult_1_l by lra. exact H.
Qed.

Section G.
  Variables (tbl : list Z) (lit : Z -> Z -> binary32) (lg lgam lgam_nu : binary32 -> binary32)
    (lfact : Z -> binary32) (sq : binary32 -> binary32) (pw : binary32 -> binary32 -> binary32).
  Hypothesis lit0 : lit 0 1 = float_of_int 0.
  Let NN : Num binary32 := N32 tbl lit lg lgam lgam_nu lfact sq pw.
  #[local] Hint Extern 0 (Num binary32) => exact NN : typeclass_instances.
  Notation grp := (nich_group binary32).
  Variables (M lo hi : R).
  Hypothesis HM : / 2 ^ 50 <= M <= 2 ^ 40.
  Hypothesis Hlo : - M <= lo.
  Hypothesis Hhi : hi <= M.

  Definition inside (xs : list R) : Prop := List.Forall (fun x => lo <= x <= hi) xs.
  Definition accm (xs : list R) (g : grp) : Prop :=
    let n := INR (length xs) in
    ni_count g = Z.of_nat (length xs) /\ fin (ni_mean g) = true /\ fin (ni_ctv g) = true /\
    lo <= b2r (ni_mean g) <= hi /\
    Rabs (n * b2r (ni_mean g) - rsum xs) <= 5 * (n * n) * (u24 * M) /\
    0 <= b2r (ni_ctv g) /\
    Rabs (b2r (ni_ctv g) - ssd xs) <= 25 * (n * n) * (M * (u24 * M)).

  Lemma inside_abs xs : inside xs -> List.Forall (fun x => Rabs x <= M) xs.
  Proof. intros H. eapply Forall_impl; [| exact H]. intros x Hx. now apply (in_M M lo hi Hlo Hhi). Qed.

  Lemma eta_0 : eta32 <= u24 / 1000000000000.
  Proof. rewrite eta_val. unfold u24. assert (/ 2 ^ 150 <= / 16777216 / 1000000000000); lra. Qed.

  Lemma len_range (xs : list R) : xs <> [] -> (Z.of_nat (length xs) <= 1048576)%Z -> 1 <= INR (length xs) <= 1048576.
  Proof.
    intros NE H. rewrite INR_IZR_INZ. split; apply IZR_le; [destruct xs; [congruence | cbn [length]; lia] | exact H].
  Qed.

  Lemma ctv_le xs g : xs <> [] -> inside xs -> (Z.of_nat (length xs) <= 1048576)%Z -> accm xs g ->
    0 <= b2r (ni_ctv g) <= INR (length xs) * (3 * (M * M)).
  Proof.
    intros NE HX HL (_ & _ & _ & _ & _ & T0 & ET). split; [exact T0 |].
    pose proof (M_pos M HM) as MP. pose proof (len_range xs NE HL) as [N1 N2].
    pose proof (ssd_le M xs (Rlt_le _ _ MP) (inside_abs xs HX)) as [_ SL].
    set (n := INR (length xs)) in *. assert (0 < M * M) as MM by (now apply Rmult_lt_0_compat).
    assert (25 * (n * n) * (M * (u24 * M)) <= n * (25 / 16 * (M * M))) as B.
    { unfold u24. apply Rle_trans with (n * (n * (25 / 16777216 * (M * M)))); [right; field |].
      apply Rmult_le_compat_l; [lra |]. apply Rle_trans with (1048576 * (25 / 16777216 * (M * M))); [| lra].
      apply Rmult_le_compat_r; lra. }
    assert (0 < n * (M * M)) by (apply Rmult_lt_0_compat; lra).
    apply Rabs_le_inv in ET. lra.
  Qed.

  Lemma accm_first dl (sh : nich_shared binary32) (v : binary32) : fin v = true -> lo <= b2r v <= hi ->
    exists g, nich_add dl sh (nich_init sh) v = Ok g /\ accm [b2r v] g.
  Proof.
    intros Fv Bv. unfold nich_add, nich_init. cbn [ni_count ni_mean ni_ctv nlit nadd nsub nmul ndiv nof NN N32 NumB].
    rewrite lit0. rewrite (i32_small) by lia. cbn [obind]. eexists. split; [reflexivity |].
    destruct zero_val as [Z0 FZ]. pose proof (M_pos M HM) as MP. pose proof (in_M M lo hi Hlo Hhi _ Bv) as AV.
    destruct (minus_ok v (float_of_int 0) Fv FZ) as [ED FD].
    { apply big127. rewrite Z0. replace (b2r v - 0) with (b2r v) by ring. lra. }
    rewrite Z0 in ED. replace (b2r v - 0) with (b2r v) in ED by ring. rewrite rnd_same in ED.
    destruct (int_ok (0 + 1) eq_refl) as [E1 F1]. cbn [Z.add] in E1, F1 |- *.
    assert (b2r (b32_minus mode_NE v (float_of_int 0)) / b2r (float_of_int 1) = b2r v) as EQ by (rewrite ED, E1; field).
    destruct (div_ok (b32_minus mode_NE v (float_of_int 0)) (float_of_int 1) FD) as [Eq Fq].
    { rewrite E1. lra. }
    { apply big127. rewrite EQ. lra. }
    rewrite EQ, rnd_same in Eq.
    destruct (plus_ok (float_of_int 0) _ FZ Fq) as [Em Fm].
    { apply big127. rewrite Z0, Eq, Rplus_0_l. lra. }
    rewrite Z0, Eq, Rplus_0_l, rnd_same in Em.
    destruct (minus_ok v _ Fv Fm) as [Ee Fe].
    { apply big127. rewrite Em. replace (b2r v - b2r v) with 0 by ring. rewrite Rabs_R0. lra. }
    rewrite Em in Ee. replace (b2r v - b2r v) with 0 in Ee by ring. rewrite rnd_0 in Ee.
    destruct (mult_ok _ _ FD Fe) as [Ep Fp].
    { apply big127. rewrite Ee, Rmult_0_r, Rabs_R0. lra. }
    rewrite Ee, Rmult_0_r, rnd_0 in Ep.
    destruct (plus_ok (float_of_int 0) _ FZ Fp) as [Et Ft].
    { apply big127. rewrite Ep, Z0, Rplus_0_l, Rabs_R0. lra. }
    rewrite Ep, Z0, Rplus_0_l, rnd_0 in Et.
    unfold accm. cbn [ni_count ni_mean ni_ctv length]. rewrite ssd_one. cbn [rsum INR].
    split; [reflexivity |]. split; [exact Fm |]. split; [exact Ft |]. rewrite Em, Et.
    assert (0 < u24) by (unfold u24; lra).
    assert (0 < u24 * M) by (now apply Rmult_lt_0_compat). assert (0 < M * M) by (now apply Rmult_lt_0_compat).
    assert (0 < M * (u24 * M)) by (now apply Rmult_lt_0_compat).
    split; [exact Bv |]. replace (1 * b2r v - (b2r v + 0)) with 0 by ring. replace (0 - 0) with 0 by ring. rewrite Rabs_R0. lra.
  Qed.

  Lemma accm_step dl (sh : nich_shared binary32) xs g (v : binary32) : xs <> [] -> List.Forall (fun x => lo <= x <= hi) xs -> (Z.of_nat (length xs) < 1048576)%Z ->
    accm xs g -> fin v = true -> lo <= b2r v <= hi ->
    exists g', nich_add dl sh g v = Ok g' /\ accm (b2r v :: xs) g'.
  Proof.
    intros NE HX HL HA0 Fv Bv. pose proof (ctv_le xs g NE HX ltac:(lia) HA0) as BT. destruct HA0 as (HC & FM & FT & BM & EM & _ & ET).
    pose proof (M_pos M HM) as MP. pose proof (in_M M lo hi Hlo Hhi _ Bv) as AV. pose proof (in_M M lo hi Hlo Hhi _ BM) as AM.
    unfold nich_add. cbn [nadd nsub nmul ndiv nof NN N32 NumB].
    rewrite HC in *. assert (1 <= Z.of_nat (length xs))%Z as L1 by (destruct xs; [congruence | cbn [length]; lia]).
    rewrite i32_small by lia. cbn [obind]. eexists. split; [reflexivity |].
    set (m := ni_mean g) in *. set (t := ni_ctv g) in *. set (n := INR (length xs)) in *.
    assert (En : IZR (Z.of_nat (length xs)) = n) by (unfold n; symmetry; apply INR_IZR_INZ).
    assert (1 <= n) as N1 by (rewrite <- En; apply IZR_le; lia).
    assert (n + 1 <= 1048576) as N2 by (rewrite <- En, <- plus_IZR; apply IZR_le; lia).
    destruct (int_ok (Z.of_nat (length xs) + 1) ltac:(lia)) as [EK FK].
    rewrite plus_IZR, En in EK. set (c := float_of_int (Z.of_nat (length xs) + 1)) in *.
    pose proof (proj1 eta32_pos) as EP. pose proof (eta_1 M HM) as E1. pose proof (eta_2 M HM) as E2. pose proof (MM_le M HM) as MML. pose proof eta_0 as E0.
    assert (Hu : u24 = / 16777216) by reflexivity.
    assert (0 < M * M) as MM by (now apply Rmult_lt_0_compat).
    assert (M <= 2 ^ 40) as M40 by apply HM.
    assert (Rabs (b2r v - b2r m) <= 2 * M) as V1 by (apply Rabs_le; apply Rabs_le_inv in AV, AM; lra).
    destruct (minus_ok v m Fv FM) as [ED FD]; [apply big127; lra |]. set (D := b32_minus mode_NE v m) in *.
    pose proof (rnd_err (b2r v - b2r m)) as RD. rewrite <- ED in RD.
    assert (Rabs (b2r D) <= 3 * M) as D1 by (apply (abs_grow _ _ _ _ _ RD V1); rewrite Hu in *; lra).
    assert (Rabs (b2r D / b2r c) <= 3 * M) as D2.
    { rewrite EK. unfold Rdiv. rewrite Rabs_mult, Rabs_inv, (Rabs_pos_eq (n + 1)) by lra.
      apply Rle_trans with (Rabs (b2r D) * 1); [| lra]. apply Rmult_le_compat_l; [apply Rabs_pos |].
      rewrite <- Rinv_1. apply Rinv_le; lra. }
    destruct (div_ok D c FD) as [Eq Fq]; [rewrite EK; lra | apply big127; lra |]. set (q := b32_div mode_NE D c) in *.
    pose proof (rnd_err (b2r D / b2r c)) as RQ. rewrite <- Eq, EK in RQ. rewrite EK in D2.
    assert (Rabs (b2r q) <= 4 * M) as Q1 by (apply (abs_grow _ _ _ _ _ RQ D2); rewrite Hu in *; lra).
    assert (Rabs (b2r m + b2r q) <= 5 * M) as MQ by (apply Rabs_le; apply Rabs_le_inv in AM, Q1; lra).
    destruct (plus_ok m q FM Fq) as [Em' Fm']; [apply big127; lra |].
    destruct (add_mean m v (Z.of_nat (length xs)) ltac:(lia) ltac:(lia) ltac:(lia) Fm') as (_ & _ & _ & _ & _ & _ & P1 & P2).
    fold c in P1, P2. fold D in P1, P2. fold q in P1, P2. set (m' := b32_plus mode_NE m q) in *.
    pose proof (rnd_err (b2r m + b2r q)) as RM. rewrite <- Em' in RM.
    assert (lo <= b2r m' <= hi) as BM' by (destruct (Rle_or_lt (b2r m) (b2r v)) as [L | L]; [specialize (P1 L) | specialize (P2 (Rlt_le _ _ L))]; lra).
    pose proof (in_M M lo hi Hlo Hhi _ BM') as AM'.
    assert (Rabs (b2r v - b2r m') <= 2 * M) as V2 by (apply Rabs_le; apply Rabs_le_inv in AV, AM'; lra).
    destruct (minus_ok v m' Fv Fm') as [Ee Fe]; [apply big127; lra |]. set (e := b32_minus mode_NE v m') in *.
    pose proof (rnd_err (b2r v - b2r m')) as RE. rewrite <- Ee in RE.
    assert (Rabs (b2r e) <= 3 * M) as e1 by (apply (abs_grow _ _ _ _ _ RE V2); rewrite Hu in *; lra).
    assert (Rabs (b2r D * b2r e) <= 9 * (M * M)) as DE.
    { rewrite Rabs_mult. apply Rle_trans with ((3 * M) * (3 * M)); [| right; ring].
      apply Rmult_le_compat; try apply Rabs_pos; assumption. }
    destruct (mult_ok D e FD Fe) as [Ep Fp]; [apply big127; lra |]. set (p := b32_mult mode_NE D e) in *.
    pose proof (rnd_err (b2r D * b2r e)) as RP. rewrite <- Ep in RP.
    assert (Rabs (b2r p) <= 10 * (M * M)) as p1 by (apply (abs_grow _ _ _ _ _ RP DE); rewrite Hu in *; lra).
    assert (n * (M * M) <= 1048576 * (M * M)) as NM by (apply Rmult_le_compat_r; lra).
    destruct (plus_ok t p FT Fp) as [Et' Ft']; [apply big127; apply Rabs_le; apply Rabs_le_inv in p1; lra |].
    set (t' := b32_plus mode_NE t p) in *.
    pose proof (rnd_err (b2r t + b2r p)) as RT. rewrite <- Et' in RT.
    assert (0 <= b2r t') as T0.
    { rewrite Et'. apply rnd_pos. apply Rplus_le_le_0_compat; [lra |]. rewrite Ep. apply rnd_pos.
      destruct (Rle_or_lt (b2r m) (b2r v)) as [L | L].
      - destruct (P1 L) as [A1 A2]. apply Rmult_le_pos; [exact A1 |]. rewrite Ee. apply rnd_pos. lra.
      - destruct (P2 (Rlt_le _ _ L)) as [A1 A2]. assert (b2r e <= 0) by (rewrite Ee; apply rnd_neg; lra). nra. }
    assert (0 < u24 * M) as W0 by (rewrite Hu; lra).
    (* the mean *)
    assert (Rabs ((n + 1) * b2r m' - (rsum xs + b2r v)) <= 5 * (n * n) * (u24 * M) + (n + 1 + 5) * (u24 * M)) as HMn.
    { apply (mean_err M eta32 MP EP E1 E2 (n + 1) (b2r m) (b2r v) (rsum xs) (b2r D) (b2r q) (b2r m')); try assumption; try lra.
      replace (n + 1 - 1) with n by ring. exact EM. }
    assert (Rabs ((n + 1) * b2r m' - (rsum xs + b2r v)) <= 5 * ((n + 1) * (n + 1)) * (u24 * M)) as HMn'.
    { eapply Rle_trans; [exact HMn |]. rewrite <- Rmult_plus_distr_r. apply Rmult_le_compat_r; lra. }
    assert (Rabs (b2r m - rsum xs / n) <= 5 * n * (u24 * M)) as HA.
    { apply mean_off; [lra |]. eapply Rle_trans; [exact EM |]. right. ring. }
    assert (Rabs (b2r m' - (rsum xs + b2r v) / (n + 1)) <= 5 * (n + 1) * (u24 * M)) as HB.
    { apply mean_off; [lra |]. eapply Rle_trans; [exact HMn' |]. right. ring. }
    (* the variance *)
    assert (Rabs ((rsum xs + b2r v) / (n + 1)) <= M) as BS.
    { replace ((rsum xs + b2r v) / (n + 1)) with (rsum (b2r v :: xs) / INR (length (b2r v :: xs)))
        by (cbn [rsum length]; rewrite S_INR; fold n; f_equal; ring).
      apply mean_in; [exact MP | discriminate |]. constructor; [exact AV | now apply inside_abs]. }
    assert (Rabs (b2r t' - (ssd xs + (b2r v - rsum xs / n) * (b2r v - (rsum xs + b2r v) / (n + 1))))
      <= 25 * (n * n) * (M * (u24 * M)) + (50 * (n + 1) - 25) * (M * (u24 * M))) as V4.
    { apply (var_add_err M eta32 MP EP E0 E1 E2 (n + 1) (b2r m) (b2r m') (b2r v)
                (b2r v - rsum xs / n) (b2r v - (rsum xs + b2r v) / (n + 1)) (b2r D) (b2r e) (b2r p) (b2r t) (b2r t'));
        try assumption; try lra.
      - apply Rabs_le. apply Rabs_le_inv in BS, AV. lra.
      - replace (b2r v - b2r m - (b2r v - rsum xs / n)) with (- (b2r m - rsum xs / n)) by ring. rewrite Rabs_Ropp.
        eapply Rle_trans; [exact HA |]. right. ring.
      - replace (b2r v - b2r m' - (b2r v - (rsum xs + b2r v) / (n + 1))) with (- (b2r m' - (rsum xs + b2r v) / (n + 1))) by ring.
        rewrite Rabs_Ropp. exact HB. }
    unfold accm. cbn [ni_count ni_mean ni_ctv length rsum]. rewrite S_INR. fold n.
    split; [lia |]. split; [exact Fm' |]. split; [exact Ft' |]. split; [exact BM' |].
    split; [rewrite (Rplus_comm (b2r v)); exact HMn' |]. split; [exact T0 |].
    rewrite (ssd_cons _ _ NE). fold n. eapply Rle_trans; [exact V4 |]. right. ring.
  Qed.

  Lemma accm_merge dl (sh : nich_shared binary32) xs ys g h : xs <> [] -> ys <> [] -> inside xs -> inside ys ->
    (Z.of_nat (length xs + length ys) <= 1048576)%Z -> accm xs g -> accm ys h ->
    exists g', nich_merge dl sh g h = Ok g' /\ accm (ys ++ xs) g'.
  Proof.
    intros NX NY HX HY HL GX GY.
    pose proof (ctv_le xs g NX HX ltac:(lia) GX) as BT1. pose proof (ctv_le ys h NY HY ltac:(lia) GY) as BT2.
    pose proof (len_range xs NX ltac:(lia)) as [A1 A2]. pose proof (len_range ys NY ltac:(lia)) as [B1 B2].
    destruct GX as (C1 & FM1 & FT1 & BM1 & EM1 & _ & ET1). destruct GY as (C2 & FM2 & FT2 & BM2 & EM2 & _ & ET2).
    pose proof (M_pos M HM) as MP. pose proof (in_M M lo hi Hlo Hhi _ BM1) as AM1. pose proof (in_M M lo hi Hlo Hhi _ BM2) as AM2.
    unfold nich_merge, sqr. cbn [nadd nsub nmul ndiv nof NN N32 NumB]. rewrite C1, C2.
    rewrite i32_small by lia. cbn [obind]. eexists. split; [reflexivity |].
    set (m1 := ni_mean g) in *. set (m2 := ni_mean h) in *. set (t1 := ni_ctv g) in *. set (t2 := ni_ctv h) in *.
    set (a := INR (length xs)) in *. set (b := INR (length ys)) in *.
    assert (Ea : IZR (Z.of_nat (length xs)) = a) by (unfold a; symmetry; apply INR_IZR_INZ).
    assert (Eb : IZR (Z.of_nat (length ys)) = b) by (unfold b; symmetry; apply INR_IZR_INZ).
    assert (HN : a + b <= 1048576) by (rewrite <- Ea, <- Eb, <- plus_IZR; apply IZR_le; lia).
    destruct (int_ok (Z.of_nat (length xs)) ltac:(lia)) as [EA FA]. rewrite Ea in EA.
    destruct (int_ok (Z.of_nat (length ys)) ltac:(lia)) as [EB FB]. rewrite Eb in EB.
    destruct (int_ok (Z.of_nat (length xs) + Z.of_nat (length ys)) ltac:(lia)) as [EN FN]. rewrite plus_IZR, Ea, Eb in EN.
    set (fa := float_of_int (Z.of_nat (length xs))) in *. set (fb := float_of_int (Z.of_nat (length ys))) in *.
    set (fn := float_of_int (Z.of_nat (length xs) + Z.of_nat (length ys))) in *.
    pose proof (proj1 eta32_pos) as EP. pose proof (eta_1 M HM) as E1. pose proof (eta_2 M HM) as E2. pose proof (MM_le M HM) as MML.
    pose proof eta_0 as E0. assert (Hu : u24 = / 16777216) by reflexivity.
    assert (0 < M * M) as MM by (now apply Rmult_lt_0_compat). assert (M <= 2 ^ 40) as M40 by apply HM.
    (* the difference *)
    assert (Rabs (b2r m2 - b2r m1) <= 2 * M) as V1 by (apply Rabs_le; apply Rabs_le_inv in AM1, AM2; lra).
    destruct (minus_ok m2 m1 FM2 FM1) as [ED FD]; [apply big127; lra |]. set (D := b32_minus mode_NE m2 m1) in *.
    pose proof (rnd_err (b2r m2 - b2r m1)) as RD. rewrite <- ED in RD.
    (* the part of the source *)
    assert (0 < b / (a + b)) as P0 by (apply Rdiv_lt_0_compat; lra).
    assert (b / (a + b) <= 1 - / 1048576) as P1.
    { apply Rmult_le_reg_r with (a + b); [lra |]. replace (b / (a + b) * (a + b)) with b by (field; lra). lra. }
    destruct (div_ok fb fn FB) as [Es Fs]; [rewrite EN; lra | apply big127; rewrite EB, EN, Rabs_pos_eq; lra |].
    rewrite EB, EN in Es. set (s := b32_div mode_NE fb fn) in *.
    pose proof (rnd_err (b / (a + b))) as RS. rewrite <- Es in RS.
    assert (0 <= b2r s <= 1 - / 2097152) as S1.
    { split; [rewrite Es; apply rnd_pos; lra |]. rewrite (Rabs_pos_eq (b / (a + b))) in RS by lra.
      apply Rabs_le_inv in RS. rewrite Hu in *. lra. }
    destruct (D_le M eta32 MP EP E0 E1 E2 a b (b2r m1) (b2r m2) (b2r D) (b2r s) 0 0 A1 B1 HN AM1 AM2 RD RS) as (D1 & D2 & _).
    assert (Rabs (b2r s) <= 1) as S2 by (rewrite Rabs_pos_eq; lra).
    (* the mean *)
    assert (Rabs (b2r s * b2r D) <= 3 * M) as Q0 by (eapply Rle_trans; [apply (abs_mul_le _ _ _ _ S2 D2) |]; lra).
    destruct (mult_ok s D Fs FD) as [Eq Fq]; [apply big127; lra |]. set (q := b32_mult mode_NE s D) in *.
    pose proof (rnd_err (b2r s * b2r D)) as RQ. rewrite <- Eq in RQ.
    assert (Rabs (b2r q) <= 4 * M) as Q1 by (apply (abs_grow _ _ _ _ _ RQ Q0); rewrite Hu in *; lra).
    assert (Rabs (b2r m1 + b2r q) <= 5 * M) as MQ by (apply Rabs_le; apply Rabs_le_inv in AM1, Q1; lra).
    destruct (plus_ok m1 q FM1 Fq) as [Em' Fm']; [apply big127; lra |]. set (m' := b32_plus mode_NE m1 q) in *.
    pose proof (rnd_err (b2r m1 + b2r q)) as RM. rewrite <- Em' in RM.
    assert (lo <= b2r m' <= hi) as BM'.
    { pose proof (merge_between m2 m1 (b2r s) S1) as X. cbv zeta in X. rewrite <- ED, <- Eq, <- Em' in X. destruct X as [X1 X2].
      destruct (Rle_or_lt (b2r m1) (b2r m2)) as [L | L]; [specialize (X1 L) | specialize (X2 (Rlt_le _ _ L))]; lra. }
    pose proof (in_M M lo hi Hlo Hhi _ BM') as AM'.
    assert (Rabs ((a + b) * b2r m' - (rsum xs + rsum ys)) <= 5 * (a * a) * (u24 * M) + 5 * (b * b) * (u24 * M) + 10 * (a * b) * (u24 * M)) as HMn.
    { exact (mean_merge_err M eta32 MP EP E0 E1 E2 a b (b2r m1) (b2r m2) (b2r D) (b2r s) (b2r q) (b2r m') A1 B1 HN AM1 AM2 RD RS
               _ _ _ _ RQ RM AM' EM1 EM2). }
    (* the variance *)
    assert (Rabs (b2r m1 - rsum xs / a) <= 5 * a * (u24 * M)) as U1
      by (apply mean_off; [lra |]; eapply Rle_trans; [exact EM1 |]; right; ring).
    assert (Rabs (b2r m2 - rsum ys / b) <= 5 * b * (u24 * M)) as U2
      by (apply mean_off; [lra |]; eapply Rle_trans; [exact EM2 |]; right; ring).
    pose proof (mean_in M xs MP NX (inside_abs xs HX)) as U3. pose proof (mean_in M ys MP NY (inside_abs ys HY)) as U4. fold a in U3. fold b in U4.
    assert (Rabs (b2r D * b2r D) <= 5 * (M * M)) as DD by (eapply Rle_trans; [apply (abs_mul_le _ _ _ _ D2 D2) |]; lra).
    destruct (mult_ok D D FD FD) as [Ed Fd]; [apply big127; lra |]. set (d2 := b32_mult mode_NE D D) in *.
    pose proof (rnd_err (b2r D * b2r D)) as RDD. rewrite <- Ed in RDD.
    assert (Rabs (b2r fa * b2r s) <= 1048576) as C0.
    { rewrite EA. eapply Rle_trans; [apply (abs_mul_le a (b2r s) 1048576 1); [rewrite Rabs_pos_eq; lra | exact S2] |]. lra. }
    destruct (mult_ok fa s FA Fs) as [Ec Fc]; [apply big127; lra |]. rewrite EA in Ec. set (c := b32_mult mode_NE fa s) in *.
    pose proof (rnd_err (a * b2r s)) as RC. rewrite <- Ec in RC.
    assert (forall p w t' : R, Rabs (p - b2r c * b2r d2) <= u24 * Rabs (b2r c * b2r d2) + eta32 ->
      Rabs (w - (b2r t2 + p)) <= u24 * Rabs (b2r t2 + p) + eta32 -> Rabs (t' - (b2r t1 + w)) <= u24 * Rabs (b2r t1 + w) + eta32 ->
      Rabs (b2r c * b2r d2) <= 5 * (a + b) * (M * M) /\ Rabs p <= 5 * (a + b) * (M * M) /\ Rabs w <= 10 * (a + b) * (M * M) /\
      Rabs (t' - (ssd xs + ssd ys + a * b / (a + b) * ((rsum ys / b - rsum xs / a) * (rsum ys / b - rsum xs / a))))
        <= 25 * (a * a) * (M * (u24 * M)) + 25 * (b * b) * (M * (u24 * M)) + 50 * (a * b) * (M * (u24 * M))) as V.
    { intros p w t' Hp Hw Ht.
      exact (var_merge_err M eta32 MP EP E0 E1 E2 a b (b2r m1) (b2r m2) (b2r D) (b2r s) 0 0 A1 B1 HN AM1 AM2 RD RS
               (b2r d2) (b2r c) p w (b2r t1) (b2r t2) t' (rsum xs / a) (rsum ys / b) (ssd xs) (ssd ys) _ _ RDD RC Hp Hw Ht U1 U2 U3 U4 BT1 BT2 ET1 ET2). }
    assert ((a + b) * (M * M) <= 1048576 * (M * M)) as NM by (apply Rmult_le_compat_r; lra).
    assert (a * (M * M) <= 1048576 * (M * M)) as AM by (apply Rmult_le_compat_r; lra).
    assert (b * (M * M) <= 1048576 * (M * M)) as BMM by (apply Rmult_le_compat_r; lra).
    destruct (V (rnd (b2r c * b2r d2)) (rnd (b2r t2 + rnd (b2r c * b2r d2))) (rnd (b2r t1 + rnd (b2r t2 + rnd (b2r c * b2r d2))))
                (rnd_err _) (rnd_err _) (rnd_err _)) as (W1 & W2 & W3 & W4).
    destruct (mult_ok c d2 Fc Fd) as [Ep Fp]; [apply big127; lra |]. set (p := b32_mult mode_NE c d2) in *. rewrite <- Ep in W2, W3, W4.
    destruct (plus_ok t2 p FT2 Fp) as [Ew Fw]; [apply big127; apply Rabs_le; apply Rabs_le_inv in W2; lra |].
    set (w := b32_plus mode_NE t2 p) in *. rewrite <- Ew in W3, W4.
    destruct (plus_ok t1 w FT1 Fw) as [Et Ft]; [apply big127; apply Rabs_le; apply Rabs_le_inv in W3; lra |].
    set (t' := b32_plus mode_NE t1 w) in *. rewrite <- Et in W4.
    unfold accm. cbn [ni_count ni_mean ni_ctv]. rewrite app_length, plus_INR, rsum_app. fold a. fold b.
    split; [lia |]. split; [exact Fm' |]. split; [exact Ft |]. split; [exact BM' |]. split; [| split].
    - rewrite (Rplus_comm b a), (Rplus_comm (rsum ys)). eapply Rle_trans; [exact HMn |]. right. ring.
    - rewrite Et. apply rnd_pos. apply Rplus_le_le_0_compat; [lra |]. rewrite Ew. apply rnd_pos.
      apply Rplus_le_le_0_compat; [lra |]. rewrite Ep. apply rnd_pos. apply Rmult_le_pos.
      + rewrite Ec. apply rnd_pos. apply Rmult_le_pos; lra.
      + rewrite Ed. apply rnd_pos. apply Rle_0_sqr.
    - rewrite (ssd_app xs ys NX NY). fold a. fold b. eapply Rle_trans; [exact W4 |]. right. ring.
  Qed.

  (** One of the groups is new. *)
  Lemma accm_values xs (g g' : grp) : accm xs g -> ni_count g' = ni_count g -> fin (ni_mean g') = true -> fin (ni_ctv g') = true ->
    b2r (ni_mean g') = b2r (ni_mean g) -> b2r (ni_ctv g') = b2r (ni_ctv g) -> accm xs g'.
  Proof.
    intros (H1 & _ & _ & H2 & H3 & H4 & H5) E1 F1 F2 E2 E3. unfold accm. cbv zeta. rewrite E1, E2, E3.
    exact (conj H1 (conj F1 (conj F2 (conj H2 (conj H3 (conj H4 H5)))))).
  Qed.

  Lemma accm_into_new dl (sh : nich_shared binary32) ys h : ys <> [] -> inside ys -> (Z.of_nat (length ys) <= 1048576)%Z ->
    accm ys h -> exists g', nich_merge dl sh (nich_init sh) h = Ok g' /\ accm ys g'.
  Proof.
    intros NY HY HL GY. pose proof (ctv_le ys h NY HY HL GY) as BT. pose proof (len_range ys NY HL) as [B1 B2].
    pose proof GY as (C2 & FM & FT & BM & _). pose proof (M_pos M HM) as MP. pose proof (in_M M lo hi Hlo Hhi _ BM) as AM.
    pose proof (MM_le M HM) as MML. assert (0 < M * M) as MM by (now apply Rmult_lt_0_compat). assert (M <= 2 ^ 40) as M40 by apply HM.
    unfold nich_merge, nich_init, sqr. cbn [ni_count ni_mean ni_ctv nlit nadd nsub nmul ndiv nof NN N32 NumB]. rewrite lit0, C2.
    rewrite Z.add_0_l, i32_small by lia. cbn [obind]. eexists. split; [reflexivity |].
    set (m := ni_mean h) in *. set (t := ni_ctv h) in *. set (b := INR (length ys)) in *.
    assert (Eb : IZR (Z.of_nat (length ys)) = b) by (unfold b; symmetry; apply INR_IZR_INZ).
    destruct (int_ok (Z.of_nat (length ys)) ltac:(lia)) as [EB FB]. rewrite Eb in EB. set (fb := float_of_int (Z.of_nat (length ys))) in *.
    destruct zero_val as [Z0 FZ]. destruct (int_ok 1 eq_refl) as [E1 F1].
    destruct (minus_ok m (float_of_int 0) FM FZ) as [ED FD]; [apply big127; rewrite Z0, Rminus_0_r; lra |].
    rewrite Z0, Rminus_0_r, rnd_same in ED. set (D := b32_minus mode_NE m (float_of_int 0)) in *.
    assert (b2r fb / b2r fb = 1) as EQ by (rewrite EB; field; lra).
    destruct (div_ok fb fb FB) as [Es Fs]; [rewrite EB; lra | apply big127; rewrite EQ, Rabs_R1; lra |].
    rewrite EQ in Es. replace (rnd 1) with 1 in Es by (rewrite <- E1 at 2; rewrite rnd_same, E1; reflexivity).
    set (s := b32_div mode_NE fb fb) in *.
    destruct (mult_ok s D Fs FD) as [Eq Fq]; [apply big127; rewrite Es, ED, Rmult_1_l; lra |].
    rewrite Es, ED, Rmult_1_l, rnd_same in Eq. set (q := b32_mult mode_NE s D) in *.
    destruct (plus_ok (float_of_int 0) q FZ Fq) as [Em Fm]; [apply big127; rewrite Z0, Eq, Rplus_0_l; lra |].
    rewrite Z0, Eq, Rplus_0_l, rnd_same in Em.
    destruct (mult_ok (float_of_int 0) s FZ Fs) as [Ec Fc]; [apply big127; rewrite Z0, Rmult_0_l, Rabs_R0; lra |].
    rewrite Z0, Rmult_0_l, rnd_0 in Ec. set (c := b32_mult mode_NE (float_of_int 0) s) in *.
    assert (Rabs (b2r D * b2r D) <= M * M) as DD by (rewrite ED; now apply abs_mul_le).
    destruct (mult_ok D D FD FD) as [Ed Fd]; [apply big127; lra |]. set (d2 := b32_mult mode_NE D D) in *.
    destruct (mult_ok c d2 Fc Fd) as [Ep Fp]; [apply big127; rewrite Ec, Rmult_0_l, Rabs_R0; lra |].
    rewrite Ec, Rmult_0_l, rnd_0 in Ep. set (p := b32_mult mode_NE c d2) in *.
    assert (b * (M * M) <= 1048576 * (M * M)) as BMM by (apply Rmult_le_compat_r; lra).
    assert (Rabs (b2r t) <= 2 ^ 120) as TB by (rewrite Rabs_pos_eq; lra).
    destruct (plus_ok t p FT Fp) as [Ew Fw]; [apply big127; rewrite Ep, Rplus_0_r; exact TB |].
    rewrite Ep, Rplus_0_r, rnd_same in Ew. set (w := b32_plus mode_NE t p) in *.
    destruct (plus_ok (float_of_int 0) w FZ Fw) as [Et Ft]; [apply big127; rewrite Z0, Ew, Rplus_0_l; exact TB |].
    rewrite Z0, Ew, Rplus_0_l, rnd_same in Et.
    apply (accm_values ys h); cbn [ni_count ni_mean ni_ctv]; try assumption. now symmetry.
  Qed.

  Lemma accm_from_new dl (sh : nich_shared binary32) xs g : xs <> [] -> inside xs -> (Z.of_nat (length xs) <= 1048576)%Z ->
    accm xs g -> exists g', nich_merge dl sh g (nich_init sh) = Ok g' /\ accm xs g'.
  Proof.
    intros NX HX HL GX. pose proof (ctv_le xs g NX HX HL GX) as BT. pose proof (len_range xs NX HL) as [A1 A2].
    pose proof GX as (C1 & FM & FT & BM & _). pose proof (M_pos M HM) as MP. pose proof (in_M M lo hi Hlo Hhi _ BM) as AM.
    pose proof (MM_le M HM) as MML. assert (0 < M * M) as MM by (now apply Rmult_lt_0_compat). assert (M <= 2 ^ 40) as M40 by apply HM.
    unfold nich_merge, nich_init, sqr. cbn [ni_count ni_mean ni_ctv nlit nadd nsub nmul ndiv nof NN N32 NumB]. rewrite lit0, C1.
    rewrite Z.add_0_r, i32_small by lia. cbn [obind]. eexists. split; [reflexivity |].
    set (m := ni_mean g) in *. set (t := ni_ctv g) in *. set (a := INR (length xs)) in *.
    assert (Ea : IZR (Z.of_nat (length xs)) = a) by (unfold a; symmetry; apply INR_IZR_INZ).
    destruct (int_ok (Z.of_nat (length xs)) ltac:(lia)) as [EA FA]. rewrite Ea in EA. set (fa := float_of_int (Z.of_nat (length xs))) in *.
    destruct zero_val as [Z0 FZ].
    destruct (minus_ok (float_of_int 0) m FZ FM) as [ED FD]; [apply big127; rewrite Z0, Rminus_0_l, Rabs_Ropp; lra |].
    rewrite Z0, Rminus_0_l, rnd_opp, rnd_same in ED. set (D := b32_minus mode_NE (float_of_int 0) m) in *.
    assert (b2r (float_of_int 0) / b2r fa = 0) as EQ by (rewrite Z0, EA; field; lra).
    destruct (div_ok (float_of_int 0) fa FZ) as [Es Fs]; [rewrite EA; lra | apply big127; rewrite EQ, Rabs_R0; lra |].
    rewrite EQ, rnd_0 in Es. set (s := b32_div mode_NE (float_of_int 0) fa) in *.
    destruct (mult_ok s D Fs FD) as [Eq Fq]; [apply big127; rewrite Es, Rmult_0_l, Rabs_R0; lra |].
    rewrite Es, Rmult_0_l, rnd_0 in Eq. set (q := b32_mult mode_NE s D) in *.
    destruct (plus_ok m q FM Fq) as [Em Fm]; [apply big127; rewrite Eq, Rplus_0_r; lra |].
    rewrite Eq, Rplus_0_r, rnd_same in Em.
    destruct (mult_ok fa s FA Fs) as [Ec Fc]; [apply big127; rewrite Es, Rmult_0_r, Rabs_R0; lra |].
    rewrite Es, Rmult_0_r, rnd_0 in Ec. set (c := b32_mult mode_NE fa s) in *.
    assert (Rabs (b2r D * b2r D) <= M * M) as DD by (rewrite ED; apply abs_mul_le; rewrite Rabs_Ropp; exact AM).
    destruct (mult_ok D D FD FD) as [Ed Fd]; [apply big127; lra |]. set (d2 := b32_mult mode_NE D D) in *.
    destruct (mult_ok c d2 Fc Fd) as [Ep Fp]; [apply big127; rewrite Ec, Rmult_0_l, Rabs_R0; lra |].
    rewrite Ec, Rmult_0_l, rnd_0 in Ep. set (p := b32_mult mode_NE c d2) in *.
    assert (a * (M * M) <= 1048576 * (M * M)) as BMM by (apply Rmult_le_compat_r; lra).
    assert (Rabs (b2r t) <= 2 ^ 120) as TB by (rewrite Rabs_pos_eq; lra).
    destruct (plus_ok (float_of_int 0) p FZ Fp) as [Ew Fw]; [apply big127; rewrite Z0, Ep, Rplus_0_r, Rabs_R0; lra |].
    rewrite Z0, Ep, Rplus_0_r, rnd_0 in Ew. set (w := b32_plus mode_NE (float_of_int 0) p) in *.
    destruct (plus_ok t w FT Fw) as [Et Ft]; [apply big127; rewrite Ew, Rplus_0_r; exact TB |].
    rewrite Ew, Rplus_0_r, rnd_same in Et.
    apply (accm_values xs g); cbn [ni_count ni_mean ni_ctv]; try assumption. now symmetry.
  Qed.

  (** ** Histories *)
  Definition holds (sh : nich_shared binary32) (xs : list R) (g : grp) : Prop :=
    match xs with [] => g = nich_init sh | _ => accm xs g end.
  Definition fits (v : binary32) : Prop := fin v = true /\ lo <= b2r v <= hi.
  Notation reals vs := (map (fun v : binary32 => b2r v) vs).

  Lemma holds_add dl (sh : nich_shared binary32) xs g v : inside xs -> (Z.of_nat (length xs) + 1 <= 1048576)%Z ->
    holds sh xs g -> fits v -> exists g', nich_add dl sh g v = Ok g' /\ holds sh (b2r v :: xs) g'.
  Proof.
    intros HX HL HG [Fv Bv]. destruct xs as [|x xs].
    - cbn [holds] in HG. subst g. exact (accm_first dl sh v Fv Bv).
    - apply accm_step; auto; [discriminate | lia].
  Qed.
  Lemma holds_merge dl (sh : nich_shared binary32) xs ys g h : inside xs -> inside ys ->
    (Z.of_nat (length xs + length ys) <= 1048576)%Z -> (length xs + length ys <> 0)%nat ->
    holds sh xs g -> holds sh ys h -> exists g', nich_merge dl sh g h = Ok g' /\ holds sh (ys ++ xs) g'.
  Proof.
    intros HX HY HL H0 GX GY. destruct xs as [|x xs], ys as [|y ys].
    - cbn in H0. lia.
    - cbn [holds] in GX. subst g. rewrite app_nil_r. apply accm_into_new; try assumption; first [discriminate | cbn [length] in *; lia].
    - cbn [holds] in GY. subst h. cbn [app]. apply accm_from_new; try assumption; first [discriminate | cbn [length] in *; lia].
    - apply accm_merge; try assumption; discriminate.
  Qed.

  Lemma fits_inside vs : List.Forall fits vs -> inside (reals vs).
  Proof. intros H. induction H as [|v vs [_ Hv] _ IH]; cbn [map]; constructor; assumption. Qed.
  Lemma added_go : forall l : list (hop binary32),
    (fix all (l : list (hop binary32)) := match l with [] => [] | o :: t => hop_added o ++ all t end) l = added l.
  Proof. induction l as [|o l IH]; cbn; [reflexivity | now rewrite IH]. Qed.

  Definition ends (dl : nat) (sh : nich_shared binary32) (r : outcome grp) (vs : list binary32) : Prop :=
    exists g ws, r = Ok g /\ Permutation ws vs /\ holds sh (reals ws) g.

  Lemma perm_len {A} (xs ys : list A) : Permutation xs ys -> length xs = length ys.
  Proof. apply Permutation_length. Qed.

  Lemma grow_runs dl sh : forall l,
    List.Forall (fun o => forall us g, hop_grows o -> List.Forall fits (hop_added o) -> List.Forall fits us ->
      (Z.of_nat (length us + length (hop_added o)) <= 1048576)%Z -> hop_nonempty (Z.of_nat (length us)) o ->
      holds sh (reals us) g -> hop_size o = Z.of_nat (length (hop_added o)) /\ ends dl sh (hrun1 (NICH binary32) dl sh g o) (us ++ hop_added o)) l ->
    forall us g, only_grows l -> List.Forall fits (added l) -> List.Forall fits us ->
      (Z.of_nat (length us + length (added l)) <= 1048576)%Z -> never_empty (Z.of_nat (length us)) l ->
      holds sh (reals us) g ->
      history_size l = Z.of_nat (length (added l)) /\ ends dl sh (hruns (NICH binary32) dl sh g l) (us ++ added l).
  Proof.
    induction l as [|o l IH]; intros HF us g HG HV HU HL HN HH; cbn [hruns added history_size].
    - split; [reflexivity |]. exists g, us. rewrite app_nil_r. now split.
    - destruct HG as [G1 G2]. inversion HF as [|? ? F1 F2]; subst. cbn [added never_empty] in *. rewrite app_length in HL.
      apply List.Forall_app in HV. destruct HV as [V1 V2]. destruct HN as [N1 N2].
      destruct (F1 us g G1 V1 HU ltac:(lia) N1 HH) as (S1 & g1 & ws & E & P & H1). rewrite E. cbn [obind].
      pose proof (perm_len _ _ P) as PL. rewrite app_length in PL.
      destruct (IH F2 ws g1 G2 V2) as (S2 & g2 & ws2 & E2 & P2 & H2).
      + apply (Permutation_Forall (Permutation_sym P)). apply List.Forall_app. now split.
      + rewrite PL. lia.
      + rewrite PL. replace (Z.of_nat (length us + length (hop_added o))) with (Z.of_nat (length us) + hop_size o)%Z by lia. exact N2.
      + exact H1.
      + split; [rewrite app_length; lia |]. exists g2, ws2. split; [exact E2 |]. split; [| exact H2].
        rewrite P2, P. now rewrite app_assoc.
  Qed.

  Lemma grow_1 dl sh : forall (o : hop binary32) us g, hop_grows o -> List.Forall fits (hop_added o) -> List.Forall fits us ->
      (Z.of_nat (length us + length (hop_added o)) <= 1048576)%Z -> hop_nonempty (Z.of_nat (length us)) o ->
      holds sh (reals us) g -> hop_size o = Z.of_nat (length (hop_added o)) /\ ends dl sh (hrun1 (NICH binary32) dl sh g o) (us ++ hop_added o).
  Proof.
    induction o as [v|v|v n|l IH] using hop_ind'; intros us g HG HV HU HL HN HH; try contradiction HG.
    - cbn [hop_added hop_size length hrun1] in *. split; [reflexivity |]. inversion HV as [|? ? V1 _]; subst.
      destruct (holds_add dl sh (reals us) g v (fits_inside us HU)) as (g' & E & H'); [rewrite map_length; lia | exact HH | exact V1 |].
      exists g', (v :: us). split; [exact E |]. split; [| exact H']. rewrite Permutation_app_comm. reflexivity.
    - cbn [hop_grows hop_added hop_size hop_nonempty hrun1] in *. rewrite grows_go in HG. rewrite !added_go in *. rewrite history_size_go in *.
      rewrite never_empty_go in HN. destruct HN as [N1 N2]. rewrite (hruns_go (NICH binary32) dl sh l).
      destruct (grow_runs dl sh l IH [] (c_init (NICH binary32) sh) HG HV (List.Forall_nil _) ltac:(cbn [length]; lia) N1 eq_refl)
        as (S1 & h & ws & E & P & H1). cbn [app] in P. split; [exact S1 |]. rewrite E. cbn [obind].
      pose proof (perm_len _ _ P) as PL.
      destruct (holds_merge dl sh (reals us) (reals ws) g h) as (g' & E' & H').
      + now apply fits_inside.
      + apply fits_inside. now apply (Permutation_Forall (Permutation_sym P)).
      + rewrite !map_length, PL. exact HL.
      + rewrite !map_length, PL. lia.
      + exact HH.
      + exact H1.
      + exists g', (ws ++ us). split; [exact E' |]. split; [rewrite Permutation_app_comm, P; reflexivity |].
        rewrite map_app. exact H'.
  Qed.

  Lemma grow_all dl sh (l : list (hop binary32)) : only_grows l -> never_empty 0 l -> added l <> [] ->
    (Z.of_nat (length (added l)) <= 1048576)%Z -> List.Forall fits (added l) ->
    exists g ws, hrun (NICH binary32) dl sh l = Ok g /\ Permutation ws (added l) /\ accm (reals ws) g.
  Proof.
    intros HG HN NE HL HV.
    assert (List.Forall (fun o => forall us g, hop_grows o -> List.Forall fits (hop_added o) -> List.Forall fits us ->
      (Z.of_nat (length us + length (hop_added o)) <= 1048576)%Z -> hop_nonempty (Z.of_nat (length us)) o ->
      holds sh (reals us) g -> hop_size o = Z.of_nat (length (hop_added o)) /\ ends dl sh (hrun1 (NICH binary32) dl sh g o) (us ++ hop_added o)) l) as HF.
    { apply List.Forall_forall. intros o _. apply grow_1. }
    destruct (grow_runs dl sh l HF [] (c_init (NICH binary32) sh) HG HV (List.Forall_nil _) ltac:(cbn [length]; lia) HN eq_refl)
      as (_ & g & ws & E & P & H). cbn [app] in P. exists g, ws. split; [exact E |]. split; [exact P |].
    destruct ws as [|w ws]; [apply Permutation_nil in P; congruence | exact H].
  Qed.

  Lemma grow_accuracy dl sh (l : list (hop binary32)) : only_grows l -> never_empty 0 l -> added l <> [] ->
    (Z.of_nat (length (added l)) <= 1048576)%Z -> List.Forall (fun v : binary32 => fin v = true /\ lo <= b2r v <= hi) (added l) ->
    let xs := reals (added l) in let n := INR (length (added l)) in
    exists g, hrun (NICH binary32) dl sh l = Ok g /\ ni_count g = Z.of_nat (length (added l)) /\
      fin (ni_mean g) = true /\ lo <= b2r (ni_mean g) <= hi /\
      Rabs (b2r (ni_mean g) - rmean xs) <= 5 * n / 16777216 * M /\
      fin (ni_ctv g) = true /\ 0 <= b2r (ni_ctv g) /\
      Rabs (b2r (ni_ctv g) / n - ssd xs / n) <= 25 * n / 16777216 * M ^ 2.
  Proof.
    intros HG HN NE HL HV xs n. destruct (grow_all dl sh l HG HN NE HL HV) as (g & ws & E & P & H1 & H2 & H3 & H4 & H5 & H6 & H7).
    exists g. split; [exact E |]. pose proof (Permutation_map (fun v : binary32 => b2r v) P) as PR.
    rewrite map_length, (perm_len _ _ P) in *. rewrite (rsum_perm _ _ PR) in H5. rewrite (ssd_perm _ _ PR) in H7. fold xs n in H5, H7.
    assert (0 < n) as N0 by (apply len_pos; exact NE).
    split; [exact H1 |]. split; [exact H2 |]. split; [exact H4 |]. split; [| split; [exact H3 |]; split; [exact H6 |]].
    - assert (rmean xs = rsum xs / n) as ->.
      { unfold rmean, n, xs. rewrite map_length. destruct (added l); [congruence | reflexivity]. }
      apply mean_off; [exact N0 |]. eapply Rle_trans; [exact H5 |]. right. unfold u24. field.
    - replace (b2r (ni_ctv g) / n - ssd xs / n) with (/ n * (b2r (ni_ctv g) - ssd xs)) by (field; lra).
      rewrite Rabs_mult, Rabs_inv, (Rabs_pos_eq n) by lra. apply Rmult_le_reg_l with n; [exact N0 |].
      rewrite <- Rmult_assoc, Rinv_r, Rmult_1_l by lra. eapply Rle_trans; [exact H7 |]. right. unfold u24. field.
  Qed.
End G.

Section Post.
  Variables (tbl : list Z) (lit : Z -> Z -> binary32) (lg lgam lgam_nu : binary32 -> binary32)
    (lfact : Z -> binary32) (sq : binary32 -> binary32) (pw : binary32 -> binary32 -> binary32).
  Hypothesis lit0 : lit 0 1 = float_of_int 0.
  Hypothesis lit1 : lit 1 1 = float_of_int 1.
  Let NN : Num binary32 := N32 tbl lit lg lgam lgam_nu lfact sq pw.
  #[local] Hint Extern 0 (Num binary32) => exact NN : typeclass_instances.

  Lemma grow_posterior dl (sh : nich_shared binary32) (l : list (hop binary32)) : only_grows l -> never_empty 0 l -> added l <> [] ->
    (Z.of_nat (length (added l)) <= 1048576)%Z ->
    List.Forall (fun v => fin v = true /\ Rabs (b2r v) <= bpow radix2 40) (added l) ->
    fin (ni_mu sh) = true -> Rabs (b2r (ni_mu sh)) <= bpow radix2 40 ->
    fin (ni_kappa sh) = true -> 0 < b2r (ni_kappa sh) <= bpow radix2 20 ->
    fin (ni_nu sh) = true -> 0 < b2r (ni_nu sh) <= bpow radix2 20 ->
    fin (ni_sigmasq sh) = true -> bpow radix2 (-60) <= b2r (ni_nu sh) * b2r (ni_sigmasq sh) <= bpow radix2 100 ->
    exists g, hrun (NICH binary32) dl sh l = Ok g /\
      let post := nich_plus_group sh g in
      fin (ni_kappa post) = true /\ 0 < b2r (ni_kappa post) /\ fin (ni_nu post) = true /\ 0 < b2r (ni_nu post) /\
      fin (ni_mu post) = true /\ fin (ni_sigmasq post) = true /\ 0 < b2r (ni_sigmasq post).
  Proof.
    intros HG HN NE HL HV Hmu Bmu Hk Bk Hn Bn Hs Bs. pose proof (bp_pow 40 ltac:(lia)) as E40. change (Z.of_nat 40) with 40%Z in E40.
    assert (/ 2 ^ 50 <= 2 ^ 40 <= 2 ^ 40) as HM by lra.
    assert (List.Forall (fits (- 2 ^ 40) (2 ^ 40)) (added l)) as HV'.
    { eapply Forall_impl; [| exact HV]. intros a [F B]. split; [exact F |]. rewrite E40 in B. now apply Rabs_le_inv. }
    destruct (grow_all tbl lit lg lgam lgam_nu lfact sq pw lit0 (2 ^ 40) (- 2 ^ 40) (2 ^ 40) HM (Rle_refl _) (Rle_refl _)
      dl sh l HG HN NE HL HV') as (g & ws & E & P & A).
    exists g. split; [exact E |]. pose proof (perm_len _ _ P) as PL.
    assert (map (fun v : binary32 => b2r v) ws <> []) as NW
      by (destruct ws; [apply Permutation_nil in P; congruence | discriminate]).
    pose proof (ctv_le (2 ^ 40) (- 2 ^ 40) (2 ^ 40) HM (Rle_refl _) (Rle_refl _) _ g NW
      (fits_inside _ _ ws (Permutation_Forall (Permutation_sym P) HV')) ltac:(rewrite map_length, PL; exact HL) A) as T.
    destruct A as (A1 & A2 & A3 & A4 & _). rewrite map_length, PL in *.
    assert (1 <= Z.of_nat (length (added l)))%Z by (destruct (added l); [congruence | cbn [length]; lia]).
    assert (INR (length (added l)) <= 1048576) as HNR by (rewrite INR_IZR_INZ; apply IZR_le; lia).
    pose proof (bp_pow 110 ltac:(lia)) as E110. change (Z.of_nat 110) with 110%Z in E110.
    destruct (post_pos tbl lit lg lgam lgam_nu lfact sq pw lit1 sh g) as (P1 & P2 & P3 & P4 & P5 & P6 & P7); try assumption.
    - lia.
    - rewrite E40. now apply Rabs_le.
    - split; [apply T |]. rewrite E110. eapply Rle_trans; [apply T |].
      apply Rle_trans with (1048576 * (3 * (2 ^ 40 * 2 ^ 40))); [apply Rmult_le_compat_r; [lra | exact HNR] | lra].
    - pose proof (bpow_gt_0 radix2 (-82)). cbv zeta. split; [exact P1 |]. split; [exact P2 |]. split; [exact P3 |]. split; [exact P4 |].
      split; [exact P5 |]. split; [exact P6 |]. eapply Rlt_le_trans; [eassumption | exact P7].
  Qed.
End Post.
