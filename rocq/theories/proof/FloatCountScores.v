(** Scores of GammaPoisson and BetaNegativeBinomial in single precision. *)
From Coq Require Import Reals Lra ZArith Lia Bool List.
From Flocq Require Import Core BinarySingleNaN Binary Bits.
From Verif.model Require Import Base Num FastExp FloatNum FastLog FastLgamma FloatStirling Student FloatCount BB GP BNB.
From Verif.spec Require Import LogSpec DrawSpec StudentSpec CountSpec.
From Verif.proof Require Import LnBounds LgammaBound FastExpProof FloatScoresProof FastLogProof FloatRel FloatStirlingApprox StudentGamma FloatPredictive.
From Verif.proof Require FastLgammaMore.
From Verif.props Require Import FloatStirlingProps.
Local Open Scope R_scope.

(** an approximation together with a bound on the size of what is approximated *)
Definition est (e M : R) (x : binary32) (X : R) : Prop := app e x X /\ Rabs X <= M /\ 0 <= e /\ 0 <= M.
Lemma est_weaken e f M K x X : est e M x X -> e <= f -> M <= K -> est f K x X.
Proof. intros (A & B & C & D) H I. split; [now apply app_weaken with e |]. repeat split; lra. Qed.
Lemma est_plus e f M K x y X Y : est e M x X -> est f K y Y -> M + K + e + f <= 1000000000 ->
  est (e + f + (M + K + e + f) / 16777216 + / 1000000000000) (M + K) (b32_plus mode_NE x y) (X + Y).
Proof.
  intros (A & B & C & D) (A' & B' & C' & D') H. pose proof (Rabs_triang X Y). split; [apply app_plus; try assumption; lra |]. repeat split; lra.
Qed.
Lemma est_minus e f M K x y X Y : est e M x X -> est f K y Y -> M + K + e + f <= 1000000000 ->
  est (e + f + (M + K + e + f) / 16777216 + / 1000000000000) (M + K) (b32_minus mode_NE x y) (X - Y).
Proof.
  intros (A & B & C & D) (A' & B' & C' & D') H. assert (Rabs (X - Y) <= M + K) by (pose proof (Rabs_triang X (- Y)) as T; rewrite Rabs_Ropp in T; unfold Rminus; lra).
  split; [apply app_minus; try assumption; lra |]. repeat split; lra.
Qed.
Lemma est_opp e M x X : est e M x X -> est e M (b32_opp x) (- X).
Proof.
  intros ([A A'] & B & C & D). split; [split; [now apply opp_fin |] | rewrite Rabs_Ropp; repeat split; lra].
  rewrite opp_val. replace (- b2r x - - X) with (- (b2r x - X)) by ring. now rewrite Rabs_Ropp.
Qed.
Lemma est_mult e f M K x y X Y : est e M x X -> est f K y Y -> M * K + (e * K + f * M + e * f) <= 1000000000 ->
  est (e * K + f * M + e * f + (M * K + (e * K + f * M + e * f)) / 16777216 + / 1000000000000) (M * K) (b32_mult mode_NE x y) (X * Y).
Proof.
  intros (A & B & C & D) (A' & B' & C' & D') H. split; [now apply app_mult |].
  assert (0 <= e * K) by now apply Rmult_le_pos. assert (0 <= f * M) by now apply Rmult_le_pos. assert (0 <= e * f) by now apply Rmult_le_pos. assert (0 <= M * K) by now apply Rmult_le_pos.
  repeat split; try lra. rewrite Rabs_mult. apply Rmult_le_compat; try assumption; apply Rabs_pos.
Qed.

Lemma near_dist k x X : near k x X -> k <= 6 -> Rabs (b2r x - X) <= 73 / 100000000 * X.
Proof.
  intros (F & P & Q & K & H) L. assert (k * e23 <= 72 / 100000000) as K2 by (unfold e23; lra). apply Rabs_le_inv in H.
  set (d := k * e23) in *. assert (0 <= d) by (unfold d, e23; lra).
  pose proof (ln_sub (b2r x) X P Q) as U. pose proof (ln_sub X (b2r x) Q P) as D.
  assert (b2r x - X <= d * b2r x) as A1.
  { assert ((X - b2r x) / b2r x * b2r x = X - b2r x) as E by (field; lra). assert (- d * b2r x <= (X - b2r x) / b2r x * b2r x) by (apply Rmult_le_compat_r; lra). lra. }
  assert (X - b2r x <= d * X) as A2.
  { assert ((b2r x - X) / X * X = b2r x - X) as E by (field; lra). assert (- d * X <= (b2r x - X) / X * X) by (apply Rmult_le_compat_r; lra). lra. }
  assert (d * b2r x <= 72 / 100000000 * b2r x) by (apply Rmult_le_compat_r; lra). assert (d * X <= 72 / 100000000 * X) by (apply Rmult_le_compat_r; lra).
  apply Rabs_le. lra.
Qed.

Section Scores.
  Variables (lg : R -> R) (daz : bool) (libm log2 : binary32 -> binary32).
  Hypothesis HG : is_log_gamma lg.
  Hypothesis HL : good_lgammaf lg libm.
  Hypothesis H2 : good_log2 log2.

  Lemma lg_mag20 x : bpow radix2 (-20) <= x <= bpow radix2 20 -> Rabs (lg x) <= 15000000.
  Proof using HG.
    intros H. pose proof (bpow_gt_0 radix2 (-20)) as P.
    assert (forall y, 3 <= y -> Rabs (lg y) <= y * ln y + 2) as K.
    { intros y Hy. pose proof (FastLgammaMore.lg_close lg HG 3 y ltac:(lra)) as C.
      assert (lg 3 = ln 2) as E by (replace 3 with (2 + 1) by ring; rewrite (lg_rec lg HG), (lg_two lg HG) by lra; ring).
      rewrite E in C. pose proof ln2_hi. pose proof ln2_lo. assert (ln 2 <= ln y) by (apply ln_le'; lra). apply Rabs_le_inv in C. apply Rabs_le. split; nra. }
    destruct (Rle_lt_dec 3 x) as [L | L].
    - eapply Rle_trans; [exact (K x L) |]. pose proof (ln_pow2 20 x ltac:(lra)). pose proof ln2_hi. assert (0 <= ln x) by (rewrite <- ln_1; apply ln_le'; lra).
      assert (x * ln x <= bpow radix2 20 * 14) by (apply Rmult_le_compat; lra). change (bpow radix2 20) with 1048576 in *. lra.
    - assert (0 < x) as Px by lra. destruct H as [H _]. pose proof (K (x + 1 + 1 + 1) ltac:(lra)) as C. rewrite !(lg_rec lg HG) in C by lra.
      pose proof (ln_pow2 3 (x + 1 + 1 + 1) ltac:(change (bpow radix2 3) with 8; lra)) as L1. pose proof (ln_pow2 3 (x + 1 + 1) ltac:(change (bpow radix2 3) with 8; lra)) as L2. pose proof (ln_pow2 3 (x + 1) ltac:(change (bpow radix2 3) with 8; lra)) as L3.
      pose proof (ln_pow2 2 x ltac:(change (bpow radix2 2) with 4; lra)) as L4. pose proof ln2_hi. pose proof ln2_lo.
      assert (- 20 * ln 2 <= ln x) as L5.
      { replace (-20 * ln 2) with (ln (bpow radix2 (-20))); [apply ln_le'; lra |]. rewrite bpow_exp, ln_exp. reflexivity. }
      assert (0 <= ln (x + 1)) by (rewrite <- ln_1; apply ln_le'; lra). assert (0 <= ln (x + 1 + 1)) by (rewrite <- ln_1; apply ln_le'; lra).
      assert (0 <= ln (x + 1 + 1 + 1)) by (rewrite <- ln_1; apply ln_le'; lra).
      assert ((x + 1 + 1 + 1) * ln (x + 1 + 1 + 1) <= 6 * 3) by (apply Rmult_le_compat; lra).
      apply Rabs_le_inv in C. apply Rabs_le. lra.
  Qed.

  (** log-gamma of neighbouring arguments *)
  Lemma lg_step a b : 0 < a <= b -> b - a <= 1 -> Rabs (lg b - lg a) <= (b - a) * (Rabs (ln a) + Rabs (ln b)) + (ln b - ln a).
  Proof using HG.
    intros H S. pose proof (lg_up lg HG a (b - a) ltac:(lra) ltac:(lra)) as U. pose proof (lg_low lg HG a (b - a) ltac:(lra) ltac:(lra)) as D.
    replace (a + (b - a)) with b in * by ring. assert (ln a <= ln b) by (apply ln_le'; lra).
    pose proof (Rle_abs (ln a)). pose proof (Rle_abs (- ln b)) as N. rewrite Rabs_Ropp in N.
    pose proof (Rabs_pos (ln a)). pose proof (Rabs_pos (ln b)).
    assert ((b - a) * ln a <= (b - a) * (Rabs (ln a) + Rabs (ln b))) by (apply Rmult_le_compat_l; lra).
    assert ((b - a) * - ln b <= (b - a) * (Rabs (ln a) + Rabs (ln b))) by (apply Rmult_le_compat_l; lra).
    apply Rabs_le. lra.
  Qed.
  Lemma lg_near k (x : binary32) X : near k x X -> k <= 6 -> btw (-20) 20 X -> Rabs (lg (b2r x) - lg X) <= 21 / 1000000 * X + / 1000000.
  Proof using HG.
    intros N K B. pose proof (near_dist k x X N K) as D. pose proof (near_double _ _ _ N) as DD. pose proof (btw_pos _ _ _ B) as P. destruct (btw_ln _ _ _ B ltac:(lia) ltac:(lia)) as [L1 L2].
    destruct N as (F & Px & _ & K0 & H). pose proof ln2_hi. assert (k * e23 <= 72 / 100000000) as K2 by (unfold e23; lra).
    assert (X <= 1048576) as U by (destruct B; change (bpow radix2 20) with 1048576 in *; lra). apply Rabs_le_inv in D. pose proof H as H'. apply Rabs_le_inv in H'.
    assert (Rabs (ln X) <= 1387 / 100) as M1 by (apply Rabs_le; lra). assert (Rabs (ln (b2r x)) <= 1388 / 100) as M2 by (apply Rabs_le; lra).
    assert (forall s, 0 <= s <= 73 / 100000000 * X -> s * (Rabs (ln X) + Rabs (ln (b2r x))) <= 21 / 1000000 * X) as Q.
    { intros s Hs. pose proof (Rabs_pos (ln X)). pose proof (Rabs_pos (ln (b2r x))). apply Rle_trans with (73 / 100000000 * X * (2775 / 100)); [apply Rmult_le_compat; lra | lra]. }
    destruct (Rle_lt_dec (b2r x) X) as [S | S].
    - rewrite Rabs_minus_sym. eapply Rle_trans; [apply lg_step; lra |]. rewrite (Rplus_comm (Rabs (ln (b2r x)))). pose proof (Q (X - b2r x) ltac:(lra)). lra.
    - eapply Rle_trans; [apply lg_step; lra |]. pose proof (Q (b2r x - X) ltac:(lra)). lra.
  Qed.
  (** fast_lgamma of a rounded argument *)
  Definition lgam (x : binary32) : binary32 := lgamma32 daz libm x.
  Lemma lg_est k (x : binary32) X : near k x X -> k <= 6 -> btw (-20) 20 X ->
    est (5 / 1000000 * Rabs (lg X) + 22 / 1000000 * X + 31 / 100000) (Rabs (lg X)) (lgam x) (lg X) /\ Rabs (lg X) <= 15000000 /\ 0 < X <= 1048576.
  Proof using HG HL.
    intros N K B. pose proof (lg_near k x X N K B) as D. pose proof (near_double _ _ _ N) as DD. pose proof (btw_pos _ _ _ B) as P.
    pose proof (lg_mag20 X B) as M. split; [| split; [exact M | destruct B; change (bpow radix2 20) with 1048576 in *; lra]].
    assert (bpow radix2 (-30) <= b2r x <= bpow radix2 24) as R.
    { destruct B as [B1 B2]. assert (bpow radix2 (-30) <= bpow radix2 (-20) / 2) by (apply Rle_trans with (bpow radix2 (-21)); [apply bpow_le; lia | right; change (-20)%Z with (-21 + 1)%Z; rewrite bpow_plus; change (bpow radix2 1) with 2; lra]).
      assert (bpow radix2 20 * 2 <= bpow radix2 24) by (change 2 with (bpow radix2 1); rewrite <- bpow_plus; apply bpow_le; lia). lra. }
    destruct N as (F & _). destruct (lg_any lg HG daz libm x HL F R) as (r & E & Fr & A). unfold lgam, lgamma32. rewrite E. cbn [or_nan].
    pose proof (Rabs_pos (lg X)). split; [| repeat split; try lra]. split; [exact Fr |].
    replace (b2r r - lg X) with ((b2r r - lg (b2r x)) + (lg (b2r x) - lg X)) by ring. eapply Rle_trans; [apply Rabs_triang |].
    assert (Rabs (lg (b2r x)) <= Rabs (lg X) + Rabs (lg (b2r x) - lg X)) by (pose proof (Rabs_triang (lg X) (lg (b2r x) - lg X)) as T; replace (lg X + (lg (b2r x) - lg X)) with (lg (b2r x)) in T by ring; exact T).
    lra.
  Qed.

  (** hyperparameter plus count, for moderate sums *)
  Lemma moderate_ord x : moderate x -> ordinary x.
  Proof using.
    intros [F H]. split; [exact F |]. assert (bpow radix2 (-30) <= bpow radix2 (-20)) by (apply bpow_le; lia). assert (bpow radix2 20 <= bpow radix2 30) by (apply bpow_le; lia). lra.
  Qed.
  Lemma post_near x n : moderate x -> (0 <= n)%Z -> b2r x + IZR n <= bpow radix2 20 ->
    near 2 (b32_plus mode_NE x (float_of_int n)) (b2r x + IZR n) /\ btw (-20) 20 (b2r x + IZR n) /\ (n < 16777216)%Z.
  Proof using.
    intros M P U. pose proof (moderate_ord x M) as O. destruct M as [F M]. fold (b2r x) in M. pose proof (bpow_gt_0 radix2 (-20)).
    assert (n <= 1048576)%Z as N by (apply le_IZR; change (bpow radix2 20) with 1048576 in U; lra). assert (0 <= IZR n) by (apply (IZR_le 0); lia).
    split; [apply near_plus_count; [exact O | lia] |]. split; [split; lra | lia].
  Qed.

  (** two arguments grown together *)
  Lemma grow_near k (x : binary32) X n : near k x X -> 1 <= k -> k <= 5 -> btw (-20) 20 X -> (0 <= n)%Z -> X + IZR n <= bpow radix2 20 ->
    near (k + 1) (b32_plus mode_NE x (float_of_int n)) (X + IZR n) /\ btw (-20) 20 (X + IZR n).
  Proof using.
    intros N K1 K B P U. assert (0 <= IZR n) by (apply (IZR_le 0); lia). pose proof (btw_pos _ _ _ B). destruct B as [B1 B2].
    assert (n <= 1048576)%Z by (apply le_IZR; change (bpow radix2 20) with 1048576 in U; lra).
    assert (btw (-20) 20 (X + IZR n)) as B by (split; lra). split; [| exact B].
    apply near_count; try assumption; try lia; try lra; apply (btw_usual (-20) 20); try lia; try assumption. split; lra.
  Qed.
  Lemma both_near k l (x y : binary32) X Y : near k x X -> near l y Y -> k <= 5 -> l <= 5 -> btw (-20) 20 X -> btw (-20) 20 Y -> X + Y <= bpow radix2 20 ->
    near 6 (b32_plus mode_NE x y) (X + Y) /\ btw (-20) 20 (X + Y).
  Proof using.
    intros NX NY K L BX BY U. pose proof (btw_pos _ _ _ BX). pose proof (btw_pos _ _ _ BY).
    assert (btw (-20) 20 (X + Y)) as B by (destruct BX; split; lra). split; [| exact B]. replace 6 with (5 + 1) by ring.
    apply near_add; try lra; [apply near_weaken with k; [exact NX | lra] | apply near_weaken with l; [exact NY | lra] | apply (btw_usual (-20) 20 _ B); lia].
  Qed.
  Lemma self_near x : moderate x -> near 0 x (b2r x) /\ btw (-20) 20 (b2r x).
  Proof using. intros [F H]. split; [| exact H]. apply near_self; [exact F |]. pose proof (bpow_gt_0 radix2 (-20)). fold (b2r x) in H. lra. Qed.

  (** Six log-gammas, added in any of the three orders found in bb.hpp and bnb.hpp. *)
  Section Six.
    Variables (a b c d : R) (xa xb xc xd xab xcd : binary32).
    Hypotheses (Na : near 5 xa a) (Nb : near 5 xb b) (Nc : near 5 xc c) (Nd : near 5 xd d).
    Hypotheses (Ba : btw (-20) 20 a) (Bb : btw (-20) 20 b) (Bc : btw (-20) 20 c) (Bd : btw (-20) 20 d).
    Hypotheses (Nab : near 6 xab (a + b)) (Ncd : near 6 xcd (c + d)) (Bab : btw (-20) 20 (a + b)) (Bcd : btw (-20) 20 (c + d)).
    Definition six_err : R := 6 / 1000000 * (beta_size lg c d + beta_size lg a b) + / 10000 * (a + b + (c + d)) + 2 / 1000.
    Definition six_goal (r : binary32) : Prop := fin r = true /\ Rabs (b2r r - (log_beta_fn lg c d - log_beta_fn lg a b)) <= six_err.

    Ltac ests := destruct (lg_est 5 xa a Na ltac:(lra) Ba) as (Ea & Ma & Ra); destruct (lg_est 5 xb b Nb ltac:(lra) Bb) as (Eb & Mb & Rb);
      destruct (lg_est 5 xc c Nc ltac:(lra) Bc) as (Ec & Mc & Rc); destruct (lg_est 5 xd d Nd ltac:(lra) Bd) as (Ed & Md & Rd);
      destruct (lg_est 6 xab (a + b) Nab ltac:(lra) Bab) as (Eab & Mab & Rab); destruct (lg_est 6 xcd (c + d) Ncd ltac:(lra) Bcd) as (Ecd & Mcd & Rcd);
      pose proof (Rabs_pos (lg a)); pose proof (Rabs_pos (lg b)); pose proof (Rabs_pos (lg c)); pose proof (Rabs_pos (lg d)); pose proof (Rabs_pos (lg (a + b))); pose proof (Rabs_pos (lg (c + d)));
      unfold six_goal, six_err, log_beta_fn, beta_size; generalize dependent (Rabs (lg a)); generalize dependent (Rabs (lg b)); generalize dependent (Rabs (lg c)); generalize dependent (Rabs (lg d));
      generalize dependent (Rabs (lg (a + b))); generalize dependent (Rabs (lg (c + d))); intros.
    Ltac fin_six E := destruct E as ([? E] & _ & _ & _); split; [assumption |]; match type of E with Rabs (_ - ?u) <= _ => match goal with |- Rabs (_ - ?v) <= _ => replace v with u by ring end end; eapply Rle_trans; [exact E |]; lra.

    Lemma six_value : six_goal (b32_plus mode_NE (b32_plus mode_NE (b32_minus mode_NE (lgam xab) (lgam xcd)) (b32_minus mode_NE (lgam xc) (lgam xa))) (b32_minus mode_NE (lgam xd) (lgam xb))).
    Proof using HG HL Na Nb Nc Nd Ba Bb Bc Bd Nab Ncd Bab Bcd.
      ests. pose proof (est_minus _ _ _ _ _ _ _ _ Eab Ecd ltac:(lra)) as S1. pose proof (est_minus _ _ _ _ _ _ _ _ Ec Ea ltac:(lra)) as S2. pose proof (est_minus _ _ _ _ _ _ _ _ Ed Eb ltac:(lra)) as S3.
      pose proof (est_plus _ _ _ _ _ _ _ _ S1 S2 ltac:(lra)) as S4. pose proof (est_plus _ _ _ _ _ _ _ _ S4 S3 ltac:(lra)) as S5. fin_six S5.
    Qed.
    Lemma six_cached : six_goal (b32_minus mode_NE (b32_plus mode_NE (b32_plus mode_NE (b32_minus mode_NE (b32_minus mode_NE (lgam xab) (lgam xa)) (lgam xb)) (lgam xc)) (lgam xd)) (lgam xcd)).
    Proof using HG HL Na Nb Nc Nd Ba Bb Bc Bd Nab Ncd Bab Bcd.
      ests. pose proof (est_minus _ _ _ _ _ _ _ _ Eab Ea ltac:(lra)) as S1. pose proof (est_minus _ _ _ _ _ _ _ _ S1 Eb ltac:(lra)) as S2. pose proof (est_plus _ _ _ _ _ _ _ _ S2 Ec ltac:(lra)) as S3.
      pose proof (est_plus _ _ _ _ _ _ _ _ S3 Ed ltac:(lra)) as S4. pose proof (est_minus _ _ _ _ _ _ _ _ S4 Ecd ltac:(lra)) as S5. fin_six S5.
    Qed.
    Lemma six_coins : six_goal (b32_plus mode_NE (b32_plus mode_NE (b32_plus mode_NE (float_of_int 0) (b32_minus mode_NE (lgam xc) (lgam xa))) (b32_minus mode_NE (lgam xd) (lgam xb))) (b32_minus mode_NE (lgam xab) (lgam xcd))).
    Proof using HG HL Na Nb Nc Nd Ba Bb Bc Bd Nab Ncd Bab Bcd.
      ests. pose proof (est_minus _ _ _ _ _ _ _ _ Eab Ecd ltac:(lra)) as S1. pose proof (est_minus _ _ _ _ _ _ _ _ Ec Ea ltac:(lra)) as S2. pose proof (est_minus _ _ _ _ _ _ _ _ Ed Eb ltac:(lra)) as S3.
      assert (est 0 0 (float_of_int 0) 0) as S0 by (split; [apply (app_int 0); lia | rewrite Rabs_R0; repeat split; lra]).
      pose proof (est_plus _ _ _ _ _ _ _ _ S0 S2 ltac:(lra)) as S4. pose proof (est_plus _ _ _ _ _ _ _ _ S4 S3 ltac:(lra)) as S5. pose proof (est_plus _ _ _ _ _ _ _ _ S5 S1 ltac:(lra)) as S6. fin_six S6.
    Qed.
  End Six.
End Scores.
