(** fast_log_beta and fast_log_binom in single precision. *)
From Coq Require Import Reals Lra ZArith Lia Bool Binomial.
From Flocq Require Import Core BinarySingleNaN Binary Bits.
From Verif.model Require Import Base FastExp FloatNum FastLgamma Student.
From Verif.spec Require Import DrawSpec StudentSpec.
From Verif.proof Require Import LnBounds LgammaBound FastLgammaProof FastExpProof FloatScoresProof FloatRel FloatStirlingApprox.
From Verif.proof Require FastLgammaMore.
From Verif.props Require Import FastLgammaProps.
Local Open Scope R_scope.

Section Gammas.
  Variable lg : R -> R.
  Hypothesis HG : is_log_gamma lg.

  Lemma ln_pow2 k x : 0 < x <= bpow radix2 k -> ln x <= IZR k * ln 2.
  Proof using.
    intros H. apply Rle_trans with (ln (bpow radix2 k)); [apply ln_le'; lra |]. rewrite bpow_exp, ln_exp. right. reflexivity.
  Qed.
  Lemma lg_two : lg 2 = 0.
  Proof using HG. replace 2 with (1 + 1) by ring. rewrite (lg_rec lg HG), (lg_1 lg HG), ln_1 by lra. ring. Qed.
  Lemma lg_mag x : bpow radix2 (-30) <= x <= bpow radix2 24 -> Rabs (lg x) <= 290000000.
  Proof using HG.
    intros H. pose proof (bpow_gt_0 radix2 (-30)) as P.
    assert (forall y, 3 <= y -> Rabs (lg y) <= y * ln y + 2) as K.
    { intros y Hy. pose proof (FastLgammaMore.lg_close lg HG 3 y ltac:(lra)) as C.
      assert (lg 3 = ln 2) as E by (replace 3 with (2 + 1) by ring; rewrite (lg_rec lg HG), lg_two by lra; ring).
      rewrite E in C. pose proof ln2_hi. pose proof ln2_lo. assert (ln 2 <= ln y) by (apply ln_le'; lra). apply Rabs_le_inv in C. apply Rabs_le. split; nra. }
    destruct (Rle_lt_dec 3 x) as [L | L].
    - eapply Rle_trans; [exact (K x L) |]. pose proof (ln_pow2 24 x ltac:(lra)). pose proof ln2_hi. assert (0 <= ln x) by (rewrite <- ln_1; apply ln_le'; lra).
      assert (x * ln x <= bpow radix2 24 * 17) by (apply Rmult_le_compat; lra). change (bpow radix2 24) with 16777216 in *. lra.
    - pose proof (K (x + 1 + 1 + 1) ltac:(lra)) as C. rewrite !(lg_rec lg HG) in C by lra.
      pose proof (ln_pow2 3 (x + 1 + 1 + 1) ltac:(cbn; lra)) as L1. pose proof (ln_pow2 3 (x + 1 + 1) ltac:(cbn; lra)) as L2. pose proof (ln_pow2 3 (x + 1) ltac:(cbn; lra)) as L3.
      pose proof (ln_pow2 2 x ltac:(cbn; lra)) as L4. pose proof ln2_hi. pose proof ln2_lo.
      assert (- 30 * ln 2 <= ln x) as L5.
      { replace (-30 * ln 2) with (ln (bpow radix2 (-30))); [apply ln_le'; lra |]. rewrite bpow_exp, ln_exp. reflexivity. }
      assert (0 <= ln (x + 1)) by (rewrite <- ln_1; apply ln_le'; lra). assert (0 <= ln (x + 1 + 1)) by (rewrite <- ln_1; apply ln_le'; lra).
      assert (0 <= ln (x + 1 + 1 + 1)) by (rewrite <- ln_1; apply ln_le'; lra).
      assert ((x + 1 + 1 + 1) * ln (x + 1 + 1 + 1) <= 6 * 3) by (apply Rmult_le_compat; lra).
      apply Rabs_le_inv in C. apply Rabs_le. lra.
  Qed.
  Lemma lg_mid x : 5 / 2 <= x <= 3 -> lg x <= 1.
  Proof using HG.
    intros H. pose proof (lg_up lg HG 2 (x - 2) ltac:(lra) ltac:(lra)) as U. replace (2 + (x - 2)) with x in U by ring. rewrite lg_two in U.
    pose proof ln2_hi. assert ((x - 2) * ln 2 <= 1 * ln 2) by (apply Rmult_le_compat_r; [pose proof ln2_lo |]; lra). lra.
  Qed.

  Lemma lg_any daz libm (x : binary32) : good_lgammaf lg libm -> fin x = true -> bpow radix2 (-30) <= b2r x <= bpow radix2 24 ->
    exists r, fast_lgamma32 daz libm x = Ok r /\ app (5 / 1000000 * Rabs (lg (b2r x)) + 3 / 10000) r (lg (b2r x)).
  Proof using HG.
    intros HL F H. destruct (Rlt_le_dec (b2r x) (5 / 2)) as [S | S].
    - destruct (HL x F ltac:(lra)) as [Fr Hr]. exists (libm x). split.
      + unfold fast_lgamma32. assert (b32_ltb x b_2_5 = true) as -> by (apply ltb_ok; [exact F | reflexivity | rewrite v_2_5; exact S]). reflexivity.
      + split; [exact Fr |]. pose proof (Rabs_pos (lg (b2r x))). lra.
    - assert (bpow radix2 24 < bpow radix2 30) by (apply bpow_lt; lia). assert (bpow radix2 30 < bpow radix2 32) by (apply bpow_lt; lia).
      assert (exists r, fast_lgamma32 daz libm x = Ok r /\ fin r = true /\ lgamma_close (b2r x) (lg (b2r x)) (b2r r)) as (r & E & Fr & A1 & A2 & A3 & A4).
      { destruct daz; [apply (C86_fast_lgamma_daz_partial lg libm x HG F); lra | apply (C86_fast_lgamma lg libm x HG F); lra]. }
      exists r. split; [exact E |]. split; [exact Fr |]. set (l := lg (b2r x)) in *. assert (0 <= l) as L0 by (pose proof (Rabs_pos (b2r r - l)); lra).
      rewrite (Rabs_pos_eq l) by exact L0. pose proof ln2_hi. pose proof ln2_lo.
      destruct (Rle_lt_dec 16 (b2r x)) as [B1 | B1]; [specialize (A4 B1); lra |].
      destruct (Rle_lt_dec 8 (b2r x)) as [B2 | B2].
      { specialize (A3 B2). pose proof (FastLgammaMore.lg_upper lg _ HG (Rle_trans 3 8 (b2r x) ltac:(lra) B2)) as U. fold l in U. pose proof (ln_pow2 4 (b2r x) ltac:(cbn; lra)).
        assert (0 <= ln (b2r x)) by (rewrite <- ln_1; apply ln_le'; lra). assert (b2r x * ln (b2r x) <= 16 * 3) by (apply Rmult_le_compat; lra). lra. }
      destruct (Rle_lt_dec 4 (b2r x)) as [B3 | B3].
      { specialize (A2 B3). pose proof (FastLgammaMore.lg_upper lg _ HG (Rle_trans 3 4 (b2r x) ltac:(lra) B3)) as U. fold l in U. pose proof (ln_pow2 3 (b2r x) ltac:(cbn; lra)).
        assert (0 <= ln (b2r x)) by (rewrite <- ln_1; apply ln_le'; lra). assert (b2r x * ln (b2r x) <= 8 * (21 / 10)) by (apply Rmult_le_compat; lra). lra. }
      destruct (Rle_lt_dec 3 (b2r x)) as [B4 | B4].
      { pose proof (FastLgammaMore.lg_upper lg _ HG B4) as U. fold l in U. pose proof (ln_pow2 2 (b2r x) ltac:(cbn; lra)).
        assert (0 <= ln (b2r x)) by (rewrite <- ln_1; apply ln_le'; lra). assert (b2r x * ln (b2r x) <= 4 * (14 / 10)) by (apply Rmult_le_compat; lra). lra. }
      pose proof (lg_mid (b2r x) ltac:(lra)) as U. fold l in U. lra.
  Qed.

  Lemma log_beta_close daz libm (a b : binary32) : good_lgammaf lg libm -> fin a = true -> fin b = true ->
    bpow radix2 (-30) <= b2r a -> bpow radix2 (-30) <= b2r b -> b2r a + b2r b <= bpow radix2 24 -> b2r (b32_plus mode_NE a b) = b2r a + b2r b ->
    exists r, log_beta32 (fast_lgamma32 daz libm) a b = Ok r /\
      app (6 / 1000000 * (Rabs (lg (b2r a)) + Rabs (lg (b2r b)) + Rabs (lg (b2r a + b2r b))) + / 1000) r
        (lg (b2r a) + lg (b2r b) - lg (b2r a + b2r b)).
  Proof using HG.
    intros HL Fa Fb La Lb Us Es. pose proof (bpow_gt_0 radix2 (-30)) as P.
    assert (Rabs (b2r a + b2r b) <= bpow radix2 127) as M by (rewrite Rabs_pos_eq by lra; eapply Rle_trans; [exact Us | apply bpow_le; lia]).
    destruct (plus_ok a b Fa Fb M) as [_ Fs]. unfold log_beta32. destruct (int_ok 0 ltac:(lia)) as [V0 F0].
    assert (b32_leb a (float_of_int 0) = false) as ->.
    { destruct (b32_leb a (float_of_int 0)) eqn:Q; [| reflexivity]. apply leb_ok in Q; try assumption. rewrite V0 in Q. lra. }
    assert (b32_leb b (float_of_int 0) = false) as ->.
    { destruct (b32_leb b (float_of_int 0)) eqn:Q; [| reflexivity]. apply leb_ok in Q; try assumption. rewrite V0 in Q. lra. }
    cbn [orb]. destruct (lg_any daz libm a HL Fa ltac:(lra)) as (ra & -> & Aa). destruct (lg_any daz libm b HL Fb ltac:(lra)) as (rb & -> & Ab).
    destruct (lg_any daz libm _ HL Fs ltac:(rewrite Es; lra)) as (rc & -> & Ac). rewrite Es in Ac. cbn [obind]. eexists. split; [reflexivity |].
    pose proof (lg_mag (b2r a) ltac:(lra)) as Ma. pose proof (lg_mag (b2r b) ltac:(lra)) as Mb. pose proof (lg_mag (b2r a + b2r b) ltac:(lra)) as Mc.
    set (A := lg (b2r a)) in *. set (B := lg (b2r b)) in *. set (C := lg (b2r a + b2r b)) in *.
    pose proof (Rabs_pos A). pose proof (Rabs_pos B). pose proof (Rabs_pos C). pose proof (Rabs_triang A B).
    pose proof (app_plus _ _ _ _ _ _ (Rabs A + Rabs B + (5 / 1000000 * Rabs A + 3 / 10000) + (5 / 1000000 * Rabs B + 3 / 10000)) Aa Ab ltac:(lra)) as S1.
    eapply app_weaken in S1; [| instantiate (1 := 52 / 10000000 * (Rabs A + Rabs B) + 61 / 100000); lra].
    assert (Rabs (A + B - C) <= Rabs A + Rabs B + Rabs C) by (pose proof (Rabs_triang (A + B) (- C)) as T; rewrite Rabs_Ropp in T; unfold Rminus; lra).
    pose proof (app_minus _ _ _ _ _ _ (Rabs A + Rabs B + Rabs C + (52 / 10000000 * (Rabs A + Rabs B) + 61 / 100000) + (5 / 1000000 * Rabs C + 3 / 10000)) S1 Ac ltac:(lra)) as S2.
    eapply app_weaken; [exact S2 |]. lra.
  Qed.

  Lemma nat_plus_one (m : nat) (z : binary32) : (Z.of_nat m < 16777215)%Z -> fin z = true -> b2r z = INR m ->
    fin (b32_plus mode_NE z (float_of_int 1)) = true /\ b2r (b32_plus mode_NE z (float_of_int 1)) = INR m + 1.
  Proof using.
    intros H Fz Vz. destruct (int_ok 1 ltac:(lia)) as [V1 F1]. destruct (int_ok (Z.of_nat (S m)) ltac:(lia)) as [V2 F2].
    rewrite <- INR_IZR_INZ, S_INR in V2.
    assert (0 <= INR m <= 16777216) as R by (split; [apply pos_INR | rewrite INR_IZR_INZ; apply IZR_le; lia]).
    destruct (plus_ok z (float_of_int 1) Fz F1) as [E F].
    { rewrite V1, Vz, Rabs_pos_eq by lra. apply Rle_trans with (bpow radix2 25); [cbn; lra | apply bpow_le; lia]. }
    split; [exact F |]. rewrite E, V1, Vz, <- V2. apply rnd_same.
  Qed.
  Lemma nat_minus (n k : nat) : (k <= n)%nat -> (Z.of_nat n < 16777215)%Z ->
    fin (b32_minus mode_NE (float_of_int (Z.of_nat n)) (float_of_int (Z.of_nat k))) = true /\
    b2r (b32_minus mode_NE (float_of_int (Z.of_nat n)) (float_of_int (Z.of_nat k))) = INR (n - k).
  Proof using.
    intros L H. destruct (int_ok (Z.of_nat n) ltac:(lia)) as [V1 F1]. destruct (int_ok (Z.of_nat k) ltac:(lia)) as [V2 F2]. destruct (int_ok (Z.of_nat (n - k)) ltac:(lia)) as [V3 F3].
    assert (IZR (Z.of_nat n) - IZR (Z.of_nat k) = IZR (Z.of_nat (n - k))) as E0 by (rewrite <- minus_IZR; f_equal; lia).
    destruct (minus_ok _ _ F1 F2) as [E F].
    { rewrite V1, V2, E0, Rabs_pos_eq by (apply (IZR_le 0); lia). apply Rle_trans with (bpow radix2 24); [change (bpow radix2 24) with 16777216; apply IZR_le; lia | apply bpow_le; lia]. }
    split; [exact F |]. rewrite E, V1, V2, E0, <- V3, rnd_same, V3, INR_IZR_INZ. reflexivity.
  Qed.

  Lemma ln_binomial n k : (k <= n)%nat -> ln (Binomial.C n k) = ln (INR (fact n)) - (ln (INR (fact k)) + ln (INR (fact (n - k)))) /\
    0 <= ln (INR (fact k)) /\ 0 <= ln (INR (fact (n - k))) /\ ln (INR (fact k)) + ln (INR (fact (n - k))) <= ln (INR (fact n)).
  Proof using.
    intros H. unfold Binomial.C. pose proof (INR_fact_lt_0 n). pose proof (INR_fact_lt_0 k). pose proof (INR_fact_lt_0 (n - k)).
    assert (0 < INR (fact k) * INR (fact (n - k))) as P by (apply Rmult_lt_0_compat; assumption).
    unfold Rdiv. rewrite ln_mult, ln_Rinv, ln_mult by (try apply Rinv_0_lt_compat; assumption).
    assert (forall m, 0 <= ln (INR (fact m))) as N.
    { intros m. rewrite <- ln_1. apply ln_le'; [lra |]. apply (le_INR 1). pose proof (lt_O_fact m). lia. }
    repeat split; try apply N; try ring. rewrite <- ln_mult by assumption. apply ln_le'; [exact P |]. rewrite <- mult_INR. apply le_INR.
    replace n with (k + (n - k))%nat at 2 by lia. generalize (n - k)%nat. clear. intros j. induction j as [|j IH]; [rewrite Nat.add_0_r; cbn; lia |].
    rewrite <- plus_n_Sm. change (fact (S (k + j))) with (S (k + j) * fact (k + j))%nat. change (fact (S j)) with (S j * fact j)%nat. nia.
  Qed.

  Lemma log_binom_close daz libm (n k : nat) : good_lgammaf lg libm -> (k <= n)%nat -> (Z.of_nat n < 16777215)%Z ->
    exists r, log_binom32 (fast_lgamma32 daz libm) (float_of_int (Z.of_nat n)) (float_of_int (Z.of_nat k)) = Ok r /\
      app (11 / 1000000 * ln (INR (fact n)) + / 1000) r (ln (Binomial.C n k)).
  Proof using HG.
    intros HL L H. destruct (int_ok (Z.of_nat n) ltac:(lia)) as [Vn Fn]. destruct (int_ok (Z.of_nat k) ltac:(lia)) as [Vk Fk]. rewrite <- INR_IZR_INZ in Vn, Vk.
    destruct (nat_minus n k L H) as [Fm Vm]. unfold log_binom32.
    destruct (nat_plus_one n _ H Fn Vn) as [F1 V1]. destruct (nat_plus_one k _ ltac:(lia) Fk Vk) as [F2 V2]. destruct (nat_plus_one (n - k) _ ltac:(lia) Fm Vm) as [F3 V3].
    assert (forall m, (Z.of_nat m < 16777215)%Z -> bpow radix2 (-30) <= INR m + 1 <= bpow radix2 24) as Rg.
    { intros m Hm. pose proof (pos_INR m). split; [apply Rle_trans with (bpow radix2 0); [apply bpow_le; lia | cbn; lra] |].
      change (bpow radix2 24) with 16777216. rewrite INR_IZR_INZ, <- plus_IZR. apply IZR_le. lia. }
    destruct (lg_any daz libm _ HL F1 ltac:(rewrite V1; apply Rg; lia)) as (ra & -> & Aa). destruct (lg_any daz libm _ HL F2 ltac:(rewrite V2; apply Rg; lia)) as (rb & -> & Ab).
    destruct (lg_any daz libm _ HL F3 ltac:(rewrite V3; apply Rg; lia)) as (rc & -> & Ac). cbn [obind]. eexists. split; [reflexivity |].
    rewrite V1 in Aa. rewrite V2 in Ab. rewrite V3 in Ac. destruct (ln_binomial n k L) as (-> & Pb & Pc & Sb).
    pose proof (lg_mag _ (Rg n ltac:(lia))) as Ma. rewrite !(FastLgammaMore.lg_fact lg HG) in *.
    set (A := ln (INR (fact n))) in *. set (B := ln (INR (fact k))) in *. set (C := ln (INR (fact (n - k)))) in *.
    rewrite (Rabs_pos_eq A) in * by lra. rewrite (Rabs_pos_eq B) in Ab by lra. rewrite (Rabs_pos_eq C) in Ac by lra.
    pose proof (app_plus _ _ _ _ _ _ (B + C + (5 / 1000000 * B + 3 / 10000) + (5 / 1000000 * C + 3 / 10000)) Ab Ac ltac:(rewrite Rabs_pos_eq by lra; lra)) as S1.
    eapply app_weaken in S1; [| instantiate (1 := 52 / 10000000 * (B + C) + 61 / 100000); lra].
    pose proof (app_minus _ _ _ _ _ _ (A + (5 / 1000000 * A + 3 / 10000) + (52 / 10000000 * (B + C) + 61 / 100000)) Aa S1 ltac:(rewrite Rabs_pos_eq by lra; lra)) as S2.
    eapply app_weaken; [exact S2 |]. lra.
  Qed.
End Gammas.

Lemma log_beta_outside lgam (a b : binary32) : fin a = true -> fin b = true -> b2r a <= 0 \/ b2r b <= 0 ->
  log_beta32 lgam a b = Ok (B754_infinity 24 128 true).
Proof.
  intros Fa Fb H. unfold log_beta32. destruct (int_ok 0 ltac:(lia)) as [V0 F0].
  assert (b32_leb a (float_of_int 0) || b32_leb b (float_of_int 0) = true)%bool as ->; [| reflexivity].
  apply orb_true_iff. destruct H as [H | H]; [left | right]; apply leb_ok; try assumption; rewrite V0; exact H.
Qed.

(** Rounding to nearest moves a value at most as far as any float is away. *)
Lemma rnd_nearest x y : rnd y = y -> Rabs (rnd x - x) <= Rabs (y - x).
Proof.
  intros H. assert (generic_format radix2 (SpecFloat.fexp 24 128) y) as G.
  { rewrite <- H. apply generic_format_round; [apply fexp_correct; reflexivity | apply valid_rnd_N]. }
  pose proof (fexp_correct 24 128 eq_refl) as V. exact (proj2 (round_N_pt radix2 (SpecFloat.fexp 24 128) (fun z => negb (Z.even z)) x) y G).
Qed.
Lemma ln_choose_one m : ln (Binomial.C (S m) 1) = ln (INR (S m)).
Proof.
  destruct (ln_binomial (S m) 1 ltac:(lia)) as [-> _]. replace (S m - 1)%nat with m by lia.
  change (fact (S m)) with (S m * fact m)%nat. rewrite mult_INR, ln_mult by (try apply INR_fact_lt_0; apply lt_0_INR; lia).
  change (INR (fact 1)) with 1. rewrite ln_1. ring.
Qed.
Lemma ln_choose_22 : 15 < ln (Binomial.C (Z.to_nat 4194303) 1).
Proof.
  destruct FastLgammaMore.step_22 as (y & _ & _ & _ & Ey & _ & _ & _ & L). rewrite Ey in L.
  replace (Z.to_nat 4194303) with (S (Z.to_nat 4194302)) by lia. rewrite ln_choose_one, INR_IZR_INZ.
  replace (Z.of_nat (S (Z.to_nat 4194302))) with 4194303%Z by lia. exact L.
Qed.
Lemma log_binom_negative lg libm daz : is_log_gamma lg -> good_lgammaf lg libm ->
  exists r, log_binom32 (fast_lgamma32 daz libm) (float_of_int 4194303) (float_of_int 1) = Ok r /\
    fin r = true /\ b2r r < - (3).
Proof.
  intros HG HL. unfold log_binom32.
  replace (b32_plus mode_NE (float_of_int 4194303) (float_of_int 1)) with (float_of_int 4194304) by (apply (B2FF_inj 24 128); vm_compute; reflexivity).
  replace (b32_plus mode_NE (b32_minus mode_NE (float_of_int 4194303) (float_of_int 1)) (float_of_int 1)) with (float_of_int 4194303) by (apply (B2FF_inj 24 128); vm_compute; reflexivity).
  replace (b32_plus mode_NE (float_of_int 1) (float_of_int 1)) with (float_of_int 2) by (apply (B2FF_inj 24 128); vm_compute; reflexivity).
  rewrite FastLgammaMore.run_22m, FastLgammaMore.run_22.
  destruct (int_ok 2 ltac:(lia)) as [V2 F2].
  assert (fast_lgamma32 daz libm (float_of_int 2) = Ok (libm (float_of_int 2))) as ->.
  { unfold fast_lgamma32. assert (b32_ltb (float_of_int 2) b_2_5 = true) as -> by (vm_compute; reflexivity). reflexivity. }
  cbn [obind]. destruct (HL (float_of_int 2) F2) as [Fl Hl].
  { rewrite V2. split; [apply Rle_trans with (bpow radix2 0); [apply bpow_le; lia | cbn; lra] | lra]. }
  rewrite V2, (lg_two lg HG), Rminus_0_r, Rabs_R0, Rplus_0_r, Rmult_1_r in Hl. set (l := libm (float_of_int 2)) in *. clearbody l.
  FastLgammaMore.value 1281621210%Z. FastLgammaMore.value 1281621209%Z.
  assert (fin (b32_of_bits 1281621210) = true) as Fr by (vm_compute; reflexivity). assert (fin (b32_of_bits 1281621209) = true) as Fr1 by (vm_compute; reflexivity).
  pose proof (rnd_same (b32_of_bits 1281621210)) as Sr.
  set (r := b32_of_bits 1281621210) in *. set (r1 := b32_of_bits 1281621209) in *. clearbody r r1. change (v32 r) with (b2r r) in *. change (v32 r1) with (b2r r1) in *.
  pose proof bpow127. apply Rabs_le_inv in Hl.
  destruct (plus_ok l r Fl Fr) as [Es Fs]; [rewrite V; apply Rabs_le; lra |].
  pose proof (rnd_nearest (b2r l + b2r r) (b2r r) Sr) as N. rewrite <- Es in N.
  set (s := b32_plus mode_NE l r) in *. clearbody s.
  assert (Rabs (b2r s - b2r r) <= / 1000000) as D.
  { replace (b2r r - (b2r l + b2r r)) with (- b2r l) in N by ring. rewrite Rabs_Ropp in N. assert (Rabs (b2r l) <= / 2097152) by (apply Rabs_le; lra).
    replace (b2r s - b2r r) with (b2r s - (b2r l + b2r r) + b2r l) by ring. eapply Rle_trans; [apply Rabs_triang |]. lra. }
  apply Rabs_le_inv in D. eexists. split; [reflexivity |].
  destruct (minus_ok r1 s Fr1 Fs) as [E F]; [apply Rabs_le; rewrite V0; lra |]. split; [exact F |]. rewrite E.
  pose proof (rnd_err (b2r r1 - b2r s)) as R. unfold u24 in R. pose proof eta32_pos.
  assert (Rabs (b2r r1 - b2r s) <= 5) as B by (apply Rabs_le; rewrite V0; lra). apply Rabs_le_inv in R. rewrite V0 in *. lra.
Qed.
