(** fast_log_factorial from 64 on. *)
From Coq Require Import List Reals Lra Lia ZArith Bool.
From Coquelicot Require Import Coquelicot.
From Flocq Require Import Core BinarySingleNaN Binary Bits.
From Verif.model Require Import Base FastExp FloatNum SpecialTables Special FastLgamma.
From Verif.spec Require Import DrawSpec.
From Verif.proof Require Import LnBounds FastExpProof FloatScoresProof FloatNichProof LgammaBound LgammaSeg FastLgammaProof FastLgammaNuProof.
Import ListNotations.
Local Open Scope R_scope.

Lemma of_bits y n : bits_of_b32 y = n -> y = b32_of_bits n.
Proof. intros <-. unfold b32_of_bits, bits_of_b32. symmetry. apply (binary_float_of_bits_of_binary_float 23 8). Qed.

Section Lip.
  Variable lg : R -> R.
  Hypothesis HG : is_log_gamma lg.
  Lemma g_diff x y : 1 <= x -> 1 <= y -> Rabs (g lg x - g lg y) <= / 4.
  Proof using HG.
    intros Hx Hy. pose proof (stirling lg HG x y ltac:(lra) ltac:(lra)). pose proof (stirling lg HG y x ltac:(lra) ltac:(lra)).
    pose proof (T_small x Hx). pose proof (T_small y Hy). apply Rabs_le. lra.
  Qed.
  Lemma ln_step a b : 0 < a <= b -> 0 <= ln b - ln a <= (b - a) / a.
  Proof using.
    intros H. split; [assert (ln a <= ln b); [destruct H as [H1 [H2 | ->]]; [left; now apply ln_increasing | lra] | lra] |].
    rewrite <- ln_div by lra. apply Rle_trans with (b / a - 1); [| right; field; lra].
    assert (0 < b / a) by (apply Rdiv_lt_0_compat; lra). pose proof (exp_ineq1_le (ln (b / a))) as E. rewrite exp_ln in E by assumption. lra.
  Qed.
  Lemma lg_close a b : 3 <= a <= b -> Rabs (lg b - lg a) <= (b - a) * ln b + / 4.
  Proof using HG.
    intros H. pose proof (g_diff b a ltac:(lra) ltac:(lra)) as D. unfold g in D. pose proof (ln_step a b ltac:(lra)) as [L1 L2].
    assert (1 <= ln a) as La.
    { rewrite <- (ln_exp 1). destruct H as [H _]. assert (exp 1 <= 3) by apply exp_le_3. destruct (Rle_lt_or_eq_dec (exp 1) a ltac:(lra)) as [Q | Q]; [left; apply ln_increasing; [apply exp_pos | exact Q] | right; congruence]. }
    assert ((b - / 2) * ln b - (a - / 2) * ln a = (b - a) * ln b + (a - / 2) * (ln b - ln a)) as E by ring.
    assert (0 <= (a - / 2) * (ln b - ln a) <= b - a) as [E1 E2].
    { split; [apply Rmult_le_pos; lra |]. apply Rle_trans with (a * ((b - a) / a)); [apply Rmult_le_compat; lra | right; field; lra]. }
    assert (b - a <= (b - a) * ln b) as E3 by (rewrite <- (Rmult_1_r (b - a)) at 1; apply Rmult_le_compat_l; lra).
    apply Rabs_le_inv in D. apply Rabs_le. lra.
  Qed.
  Lemma lg_big m : bpow radix2 24 <= m -> / 2 * m * ln m <= lg m /\ 16 <= ln m.
  Proof using HG.
    intros H. assert (16 <= ln m) as L.
    { apply Rle_trans with (ln (bpow radix2 24)).
      - rewrite LogPoly.ln_bpow. pose proof ln2_lo. lra.
      - destruct H as [H | ->]; [left; apply ln_increasing; [apply bpow_gt_0 | exact H] | lra]. }
    split; [| exact L]. change (bpow radix2 24) with 16777216 in H.
    pose proof (g_diff m 4 ltac:(lra) ltac:(lra)) as D. apply Rabs_le_inv in D.
    assert (-6 <= g lg 4) as G4.
    { unfold g. assert (lg 4 = ln 6) as ->.
      { replace 4 with (1 + 1 + 1 + 1) by ring. rewrite !(lg_rec lg HG), (lg_1 lg HG), ln_1 by lra.
        replace 6 with ((1 + 1 + 1) * (1 + 1)) by ring. rewrite ln_mult by lra. ring. }
      replace (ln 4) with (2 * ln 2) by (replace 4 with (2 * 2) by ring; rewrite ln_mult by lra; ring).
      pose proof ln2_hi. assert (0 <= ln 6) by (rewrite <- ln_1; left; apply ln_increasing; lra). lra. }
    assert (g lg m = lg m - ((m - / 2) * ln m - m)) as Dg by (unfold g; ring). rewrite Dg in D. assert (8 * (m - 1) <= (/ 2 * m - / 2) * ln m) as E.
    { apply Rle_trans with ((/ 2 * m - / 2) * 16); [lra |]. apply Rmult_le_compat_l; lra. }
    assert ((m - / 2) * ln m = / 2 * m * ln m + (/ 2 * m - / 2) * ln m) as S by field. lra.
  Qed.
  Lemma lg_fact n : lg (INR n + 1) = ln (INR (fact n)).
  Proof using HG.
    induction n as [|n IH].
    - cbn [INR fact]. rewrite Rplus_0_l, (lg_1 lg HG). now rewrite ln_1.
    - rewrite (lg_rec lg HG) by (apply lt_0_INR; lia). rewrite S_INR, IH. rewrite fact_simpl, mult_INR, S_INR.
      rewrite ln_mult; [ring | pose proof (pos_INR n); lra | apply INR_fact_lt_0].
  Qed.

  Lemma int_round_lt m hi p : (0 <= m <= hi)%Z -> (hi <= 4294967296)%Z -> v32 (float_of_int hi) < p -> v32 (float_of_int m) < p.
  Proof using.
    intros H Hh L. apply Rle_lt_trans with (v32 (float_of_int hi)); [| exact L].
    destruct (int_rnd m ltac:(lia)) as [-> _]. destruct (int_rnd hi ltac:(lia)) as [-> _]. apply rnd_le. apply IZR_le. lia.
  Qed.
  Lemma near_int m : (65 <= m <= 4294967296)%Z -> let y := v32 (float_of_int m) in
    64 <= y /\ Rabs (lg y - lg (IZR m)) <= / 5000000 * lg (IZR m).
  Proof using HG.
    intros Hm y. assert (64 <= y) as Hy by (apply (int_ge m 64); lia). split; [exact Hy |].
    assert (0 <= lg (IZR m)) as Hl.
    { assert (IZR m = INR (Z.to_nat (m - 1)) + 1) as ->.
      { rewrite INR_IZR_INZ, Z2Nat.id, minus_IZR by lia. ring. }
      rewrite lg_fact, <- ln_1. assert (1 <= INR (fact (Z.to_nat (m - 1)))) as Q by (apply (le_INR 1); apply lt_O_fact).
      destruct Q as [Q | <-]; [left; apply ln_increasing; lra | lra]. }
    destruct (Z_lt_le_dec m 16777216) as [S | B].
    - destruct (int_ok m ltac:(lia)) as [E _]. unfold y. rewrite E, Rminus_eq_0, Rabs_R0. apply Rmult_le_pos; lra.
    - destruct (lg_big (IZR m)) as [G L]; [apply (IZR_le 16777216); exact B |].
      pose proof (rnd_err (IZR m)) as E. destruct (int_rnd m ltac:(lia)) as [R _]. rewrite <- R in E. fold y in E.
      assert (16777216 <= IZR m) as Bm by (apply IZR_le; exact B). rewrite (Rabs_pos_eq (IZR m)) in E by lra. pose proof eta32_pos. unfold u24 in E.
      set (x := IZR m) in *.
      assert (Rabs (y - x) <= x * / 16000000) as E' by lra. apply Rabs_le_inv in E'.
      assert (ln (2 * x) <= 17 / 16 * ln x) as L2.
      { rewrite ln_mult by lra. pose proof ln2_hi. lra. }
      assert (Rabs (lg y - lg x) <= x * / 16000000 * (17 / 16 * ln x) + / 4) as K.
      { destruct (Rle_or_lt x y) as [C | C].
        - eapply Rle_trans; [apply lg_close; lra |]. apply Rplus_le_compat_r. apply Rmult_le_compat; try lra.
          + rewrite <- ln_1. left. apply ln_increasing; lra.
          + apply Rle_trans with (ln (2 * x)); [left; apply ln_increasing; lra | exact L2].
        - rewrite Rabs_minus_sym. eapply Rle_trans; [apply lg_close; lra |]. apply Rplus_le_compat_r. apply Rmult_le_compat; lra. }
      assert (16777216 * 16 <= x * ln x) by (apply Rmult_le_compat; lra). lra.
  Qed.
  Theorem factorial_large daz libm n : (64 <= n <= 4294967166)%Z -> (daz = true -> (n <= 1073741790)%Z) ->
    exists r, fast_log_factorial_large daz libm n = Ok r /\ fin32 r = true /\
      Rabs (v32 r - ln (INR (fact (Z.to_nat n)))) <= 45 / 10000000 * ln (INR (fact (Z.to_nat n))).
  Proof using HG.
    intros Hn Hd. unfold fast_log_factorial_large, u32. rewrite Z.mod_small by lia. set (m := (n + 1)%Z).
    destruct (near_int m ltac:(lia)) as [Y E].
    assert (v32 (float_of_int m) < bpow radix2 32) as U.
    { apply (int_round_lt m 4294967167); [lia | lia |].
      rewrite (of_bits (float_of_int 4294967167) 1333788671) by (vm_compute; reflexivity).
      rewrite <- coef_val. replace (coef 1333788671) with (16777215, 8)%Z by (vm_compute; reflexivity). unfold cval. cbn. lra. }
    assert (daz = true -> v32 (float_of_int m) < bpow radix2 30) as Ud.
    { intros D. specialize (Hd D). apply (int_round_lt m 1073741791); [lia | lia |].
      rewrite (of_bits (float_of_int 1073741791) 1317011455) by (vm_compute; reflexivity).
      rewrite <- coef_val. replace (coef 1317011455) with (16777215, 6)%Z by (vm_compute; reflexivity). unfold cval. cbn. lra. }
    destruct (lgamma_accuracy lg daz libm (float_of_int m) HG (proj2 (int_rnd m ltac:(lia))) ltac:(lra) Ud) as (c & r & Rc & Oc & Er & Fr & A).
    exists r. split; [exact Er |]. split; [exact Fr |].
    replace (ln (INR (fact (Z.to_nat n)))) with (lg (IZR m)).
    2: { rewrite <- lg_fact. f_equal. unfold m. rewrite INR_IZR_INZ, Z2Nat.id, plus_IZR by lia. reflexivity. }
    assert (5 <= c)%Z as C5.
    { assert (5 < c + 1)%Z; [| lia]. apply (lt_bpow radix2). change (bpow radix2 5) with 32. lra. }
    assert (eps c = 4295)%Z as Ee.
    { unfold eps. destruct (Z.eqb_spec c 1), (Z.eqb_spec c 2), (Z.eqb_spec c 3); lia. }
    rewrite Ee in A. change (bpow radix2 (-30)) with (/ 1073741824) in A. change (bpow radix2 (-23)) with (/ 8388608) in A.
    set (y := v32 (float_of_int m)) in *. set (G := lg (IZR m)) in *. set (Ly := lg y) in *.
    assert (0 <= G) as HG0.
    { pose proof (Rabs_pos (Ly - G)). lra. }
    apply Rabs_le_inv in A. apply Rabs_le_inv in E. apply Rabs_le. lra.
  Qed.
End Lip.

(** The float tables are the roundings of the literals. *)
Definition rounded (l : Z * Z) (b : Z) : bool :=
  let (m, e) := l in let (f, q) := coef b in
  is_finite 24 128 (b32_of_bits b) && (e <? 0)%Z && negb (f =? 0)%Z &&
  (if (0 <=? q)%Z then 2 * Z.abs (m - f * 2 ^ q * 10 ^ (- e)) <=? 2 ^ q * 10 ^ (- e)
   else 2 * Z.abs (m * 2 ^ (- q) - f * 10 ^ (- e)) <=? 10 ^ (- e))%Z.
Lemma rounded_ok l b : rounded l b = true -> fin32 (b32_of_bits b) = true /\
  Rabs (v32 (b32_of_bits b) - literal l) <= / 2 * ulp radix2 (SpecFloat.fexp 24 128) (v32 (b32_of_bits b)).
Proof.
  unfold rounded. destruct l as [m e]. destruct (coef b) as [f q] eqn:Ec. intros H.
  apply andb_prop in H as [H H4]. apply andb_prop in H as [H H3]. apply andb_prop in H as [H1 H2]. apply Z.ltb_lt in H2.
  split; [exact H1 |].
  assert (v32 (b32_of_bits b) = IZR f * bpow radix2 q) as V by (rewrite <- coef_val, Ec; reflexivity).
  assert (ulp radix2 (SpecFloat.fexp 24 128) (v32 (b32_of_bits b)) = bpow radix2 q) as U.
  { apply negb_true_iff, Z.eqb_neq in H3. unfold coef in Ec. destruct (b32_of_bits b) as [s|s|s p Q|s mm ee Q] eqn:Eb; try (inversion Ec; subst; now contradict H3).
    inversion Ec; subst ee. rewrite V. rewrite ulp_neq_0.
    - f_equal. symmetry. pose proof (canonical_canonical_mantissa 24 128 s mm q) as C.
      pose proof Q as Q'. unfold SpecFloat.bounded in Q'. apply andb_prop in Q' as [Q' _]. specialize (C Q'). unfold canonical in C. cbn [Fexp] in C. rewrite C at 1. unfold F2R. cbn [Fnum Fexp]. rewrite H0. reflexivity.
    - apply Rmult_integral_contrapositive_currified; [apply IZR_neq; exact H3 | apply Rgt_not_eq, bpow_gt_0]. }
  rewrite U, V. unfold literal. cbn [fst snd]. destruct (Z.leb_spec 0 e) as [? | _]; [lia |].
  assert (0 < 10 ^ (- e))%Z as Pe by (apply Z.pow_pos_nonneg; lia).
  assert (forall t, (0 <= t)%Z -> bpow radix2 t = IZR (2 ^ t)) as B by (intros; symmetry; now apply (IZR_Zpower radix2)).
  assert (0 < IZR (10 ^ (- e))) as Pr by (now apply IZR_lt). set (T := (10 ^ (- e))%Z) in *. clearbody T.
  destruct (Z.leb_spec 0 q) as [Q | Q]; apply Z.leb_le in H4.
  - rewrite (B q Q). set (K := (2 ^ q)%Z) in *. clearbody K.
    apply Rmult_le_reg_r with (2 * IZR T); [lra |]. rewrite <- (Rabs_pos_eq (2 * IZR T)) at 1 by lra. rewrite <- Rabs_mult.
    replace ((IZR f * IZR K - IZR m / IZR T) * (2 * IZR T)) with (IZR (2 * (f * K * T - m))) by (rewrite mult_IZR, minus_IZR, !mult_IZR; field; lra).
    rewrite <- abs_IZR. replace (/ 2 * IZR K * (2 * IZR T)) with (IZR (K * T)) by (rewrite mult_IZR; field). apply IZR_le. lia.
  - assert (bpow radix2 q = / IZR (2 ^ (- q))) as -> by (rewrite <- B by lia; rewrite <- bpow_opp; f_equal; lia).
    assert (0 < 2 ^ (- q))%Z as Pk by (apply Z.pow_pos_nonneg; lia). set (K := (2 ^ (- q))%Z) in *. clearbody K. apply IZR_lt in Pk.
    assert (0 < 2 * IZR T * IZR K) as P2 by (apply Rmult_lt_0_compat; lra).
    apply Rmult_le_reg_r with (2 * IZR T * IZR K); [lra |]. rewrite <- (Rabs_pos_eq (2 * IZR T * IZR K)) at 1 by lra. rewrite <- Rabs_mult.
    replace ((IZR f * / IZR K - IZR m / IZR T) * (2 * IZR T * IZR K)) with (IZR (2 * (f * T - m * K))) by (rewrite mult_IZR, minus_IZR, !mult_IZR; field; lra).
    rewrite <- abs_IZR. replace (/ 2 * / IZR K * (2 * IZR T * IZR K)) with (IZR T) by (field; lra). apply IZR_le. lia.
Qed.
Fixpoint all2 {A B} (p : A -> B -> bool) (l : list A) (k : list B) : bool :=
  match l, k with a :: l, b :: k => p a b && all2 p l k | [], [] => true | _, _ => false end.
Lemma all2_ok {A B} (p : A -> B -> bool) (P : A -> B -> Prop) : (forall a b, p a b = true -> P a b) ->
  forall l k, all2 p l k = true -> List.Forall2 P l k.
Proof.
  intros H l. induction l as [|a l IH]; intros [|b k] E; try discriminate; constructor.
  - apply H. now apply andb_prop in E as [E _].
  - apply IH. now apply andb_prop in E as [_ E].
Qed.
Lemma tables_rounded : all2 rounded lgamma_approx_coeff5 lgamma_coeff_bits && all2 rounded lgamma_nu_func_approx_coeff3 lgamma_nu_coeff_bits = true.
Proof. vm_compute. reflexivity. Qed.

(** Concrete runs. *)
Definition obits (o : outcome binary32) : Z := match o with Ok r => bits_of_b32 r | _ => (-1)%Z end.
Lemma obits_ok o n : obits o = n -> (0 <= n)%Z -> o = Ok (b32_of_bits n).
Proof. destruct o as [r | |]; cbn; [| lia | lia]. intros H _. f_equal. now apply of_bits. Qed.
Lemma run_4m daz libm : fast_lgamma32 daz libm (b32_of_bits 1082130431) = Ok (b32_of_bits 1071994815).
Proof. apply obits_ok; [destruct daz; vm_compute; reflexivity | lia]. Qed.
Lemma run_4 daz libm : fast_lgamma32 daz libm (b32_of_bits 1082130432) = Ok (b32_of_bits 1071994710).
Proof. apply obits_ok; [destruct daz; vm_compute; reflexivity | lia]. Qed.
Lemma run_22m daz libm : fast_lgamma32 daz libm (float_of_int 4194303) = Ok (b32_of_bits 1281621210).
Proof. apply obits_ok; [destruct daz; vm_compute; reflexivity | lia]. Qed.
Lemma run_22 daz libm : fast_lgamma32 daz libm (float_of_int 4194304) = Ok (b32_of_bits 1281621209).
Proof. apply obits_ok; [destruct daz; vm_compute; reflexivity | lia]. Qed.
Lemma run_20m daz libm : fast_lgamma32 daz libm (float_of_int 1048575) = Ok (b32_of_bits 1263390344).
Proof. apply obits_ok; [destruct daz; vm_compute; reflexivity | lia]. Qed.
Lemma run_20 daz libm : fast_lgamma32 daz libm (float_of_int 1048576) = Ok (b32_of_bits 1263390354).
Proof. apply obits_ok; [destruct daz; vm_compute; reflexivity | lia]. Qed.
Lemma run_30 libm : fast_lgamma32 false libm (float_of_int 1610612736) = Ok (b32_of_bits 1358063113).
Proof. apply obits_ok; [vm_compute; reflexivity | lia]. Qed.
Lemma run_30z libm : fast_lgamma32 true libm (float_of_int 1610612736) = Ok (b32_of_bits 1358106153).
Proof. apply obits_ok; [vm_compute; reflexivity | lia]. Qed.

Lemma close_of x l r c : (1 <= c <= 31)%Z -> bpow radix2 c <= x < bpow radix2 (c + 1) ->
  Rabs (r - l) <= (IZR (eps c) * bpow radix2 (-30) + bpow radix2 (-23)) * l ->
  Rabs (r - l) <= 39 / 1000000 * l /\ (4 <= x -> Rabs (r - l) <= 21 / 1000000 * l) /\
  (8 <= x -> Rabs (r - l) <= 72 / 10000000 * l) /\ (16 <= x -> Rabs (r - l) <= 42 / 10000000 * l).
Proof.
  intros Hc Hx H. change (bpow radix2 (-30)) with (/ 1073741824) in H. change (bpow radix2 (-23)) with (/ 8388608) in H.
  assert (0 <= l) as L.
  { assert (0 <= IZR (eps c)) as E by (apply IZR_le; unfold eps; destruct (c =? 1)%Z, (c =? 2)%Z, (c =? 3)%Z; lia).
    destruct (Rle_or_lt 0 l) as [Q | Q]; [exact Q |]. pose proof (Rabs_pos (r - l)).
    assert (0 < (IZR (eps c) * / 1073741824 + / 8388608) * - l) by (apply Rmult_lt_0_compat; lra). lra. }
  assert (forall k, bpow radix2 k <= x -> (k <= c)%Z) as Hk.
  { intros k Hk. assert (k < c + 1)%Z; [| lia]. apply (lt_bpow radix2). lra. }
  assert (forall k, (k <= c)%Z -> 39 / 1000000 * l >= Rabs (r - l) /\ ((2 <= k)%Z -> Rabs (r - l) <= 21 / 1000000 * l) /\
    ((3 <= k)%Z -> Rabs (r - l) <= 72 / 10000000 * l) /\ ((4 <= k)%Z -> Rabs (r - l) <= 42 / 10000000 * l)) as K.
  { intros k Q. unfold eps in H. destruct (Z.eqb_spec c 1), (Z.eqb_spec c 2), (Z.eqb_spec c 3); repeat split; intros; try lia; lra. }
  repeat split.
  - apply Rge_le. apply (K c); lia.
  - intros Q. apply (K 2%Z); [| lia]. apply Hk. exact Q.
  - intros Q. apply (K 3%Z); [| lia]. apply Hk. exact Q.
  - intros Q. apply (K 4%Z); [| lia]. apply Hk. exact Q.
Qed.
Lemma leb_r x y : fin32 x = true -> fin32 y = true -> b32_leb x y = true <-> v32 x <= v32 y.
Proof.
  intros Fx Fy. unfold b32_leb, b32_compare. rewrite (Bcompare_correct 24 128) by assumption.
  destruct (Rcompare_spec (v32 x) (v32 y)); split; intros; try reflexivity; try discriminate; lra.
Qed.
Lemma ltb_r x y : fin32 x = true -> fin32 y = true -> b32_ltb x y = true <-> v32 x < v32 y.
Proof.
  intros Fx Fy. unfold b32_ltb, b32_compare. rewrite (Bcompare_correct 24 128) by assumption.
  destruct (Rcompare_spec (v32 x) (v32 y)); split; intros; try reflexivity; try discriminate; lra.
Qed.
Lemma fast_lgamma_all lg libm (y : binary32) : is_log_gamma lg -> fin32 y = true ->
  (5 / 2 <= v32 y < bpow radix2 32 -> exists r, fast_lgamma32 false libm y = Ok r /\ fin32 r = true /\
    let x := v32 y in let l := lg x in let r := v32 r in
    Rabs (r - l) <= 39 / 1000000 * l /\ (4 <= x -> Rabs (r - l) <= 21 / 1000000 * l) /\
    (8 <= x -> Rabs (r - l) <= 72 / 10000000 * l) /\ (16 <= x -> Rabs (r - l) <= 42 / 10000000 * l)) /\
  (v32 y < 5 / 2 \/ bpow radix2 32 <= v32 y -> fast_lgamma32 false libm y = Ok (libm y)).
Proof.
  intros HG F. split.
  - intros R. destruct (lgamma_accuracy lg false libm y HG F R ltac:(discriminate)) as (c & r & Rc & Oc & Er & Fr & A).
    exists r. split; [exact Er |]. split; [exact Fr |]. exact (close_of _ _ _ c Rc Oc A).
  - intros R. unfold fast_lgamma32. replace (b32_ltb y b_2_5 || b32_leb b_2_32 y)%bool with true; [reflexivity |]. symmetry.
    apply orb_true_iff. destruct R as [R | R]; [left; apply ltb_r | right; apply leb_r]; try assumption; try reflexivity; rewrite ?v_2_5, ?v_2_32; exact R.
Qed.
Lemma fast_lgamma_daz lg libm (y : binary32) : is_log_gamma lg -> fin32 y = true ->
  5 / 2 <= v32 y < bpow radix2 30 -> exists r, fast_lgamma32 true libm y = Ok r /\ fin32 r = true /\
    let x := v32 y in let l := lg x in let r := v32 r in
    Rabs (r - l) <= 39 / 1000000 * l /\ (4 <= x -> Rabs (r - l) <= 21 / 1000000 * l) /\
    (8 <= x -> Rabs (r - l) <= 72 / 10000000 * l) /\ (16 <= x -> Rabs (r - l) <= 42 / 10000000 * l).
Proof.
  intros HG F R. assert (bpow radix2 30 < bpow radix2 32) by (apply bpow_lt; lia).
  destruct (lgamma_accuracy lg true libm y HG F ltac:(lra) ltac:(lra)) as (c & r & Rc & Oc & Er & Fr & A).
  exists r. split; [exact Er |]. split; [exact Fr |]. exact (close_of _ _ _ c Rc Oc A).
Qed.
Lemma vb n a : coef n = a -> v32 (b32_of_bits n) = cval a.
Proof. intros <-. symmetry. apply coef_val. Qed.
Ltac value n := let H := fresh "V" in let c := eval vm_compute in (coef n) in let t := eval cbn in (IZR (fst c) * bpow radix2 (snd c)) in
  pose proof (vb n c ltac:(vm_compute; reflexivity)) as H; change (cval c) with t in H.
Lemma daz_refuted : exists y r : binary32, fin32 y = true /\ v32 y = 1610612736 /\ fin32 r = true /\
  forall lg libm, is_log_gamma lg -> fast_lgamma32 true libm y = Ok r /\ 2 / 1000 * lg (v32 y) < Rabs (v32 r - lg (v32 y)).
Proof.
  assert (float_of_int 1610612736 = b32_of_bits 1321205760) as E by (apply of_bits; vm_compute; reflexivity).
  value 1321205760%Z. value 1358106153%Z. value 1358063113%Z.
  exists (float_of_int 1610612736), (b32_of_bits 1358106153). rewrite E.
  assert (v32 (b32_of_bits 1321205760) = 1610612736) as V2 by lra.
  assert (fin32 (b32_of_bits 1321205760) = true) as F by (vm_compute; reflexivity).
  split; [exact F |]. split; [exact V2 |]. split; [vm_compute; reflexivity |]. intros lg libm HG.
  split; [rewrite <- E; apply run_30z |].
  destruct (fast_lgamma_all lg libm (b32_of_bits 1321205760) HG F) as [A _]. destruct A as (r & Er & Fr & _ & _ & _ & A).
  { rewrite V2. change (bpow radix2 32) with 4294967296. lra. }
  rewrite <- E, run_30 in Er. injection Er as <-. specialize (A ltac:(lra)). rewrite V1 in A. rewrite V2 in *. rewrite V0.
  apply Rabs_le_inv in A. apply Rlt_le_trans with (2 := Rle_abs _). lra.
Qed.
Lemma lg_upper lg x : is_log_gamma lg -> 3 <= x -> lg x <= x * ln x.
Proof.
  intros HG H. pose proof (lg_close lg HG 3 x ltac:(lra)) as C. apply Rabs_le_inv in C.
  assert (lg 3 = ln 2) as E.
  { replace 3 with (1 + 1 + 1) by ring. rewrite !(lg_rec lg HG), (lg_1 lg HG), ln_1 by lra. replace (1 + 1) with 2 by ring. ring. }
  assert (ln 2 <= ln x) by (left; apply ln_increasing; lra). pose proof ln2_lo. lra.
Qed.
Lemma step_partial lg libm (y y1 : binary32) : is_log_gamma lg -> fin32 y = true -> fin32 y1 = true -> v32 y1 = v32 y + 1 ->
  16 <= v32 y -> v32 y1 < bpow radix2 32 ->
  exists r r1, fast_lgamma32 false libm y = Ok r /\ fast_lgamma32 false libm y1 = Ok r1 /\
    Rabs ((v32 r1 - v32 r) - ln (v32 y)) <= 84 / 10000000 * (v32 y1 * ln (v32 y1)).
Proof.
  intros HG F F1 E R R1.
  destruct (fast_lgamma_all lg libm y HG F) as [A _]. destruct A as (r & Er & _ & _ & _ & _ & A); [lra |].
  destruct (fast_lgamma_all lg libm y1 HG F1) as [B _]. destruct B as (r1 & Er1 & _ & _ & _ & _ & B); [lra |].
  exists r, r1. split; [exact Er |]. split; [exact Er1 |]. specialize (A R). specialize (B ltac:(lra)).
  pose proof (lg_upper lg (v32 y1) HG ltac:(lra)) as U. rewrite E in U, B |- *. rewrite (lg_rec lg HG) in U, B by lra.
  assert (0 <= ln (v32 y)) by (rewrite <- ln_1; left; apply ln_increasing; lra).
  set (x := v32 y) in *. set (b := v32 r1) in *. set (a := v32 r) in *. set (l := lg x) in *. set (d := ln x) in *. clearbody x b a l d.
  set (P := (x + 1) * ln (x + 1)) in *. clearbody P.
  apply Rabs_le_inv in A. apply Rabs_le_inv in B. apply Rabs_le. lra.
Qed.
Lemma step_22 : exists y y1 r r1 : binary32, v32 y = 4194303 /\ v32 y1 = 4194304 /\
  (forall daz libm, fast_lgamma32 daz libm y = Ok r /\ fast_lgamma32 daz libm y1 = Ok r1) /\
  v32 r1 - v32 r = -4 /\ 15 < ln (v32 y).
Proof.
  exists (float_of_int 4194303), (float_of_int 4194304), (b32_of_bits 1281621210), (b32_of_bits 1281621209).
  destruct (int_ok 4194303 ltac:(lia)) as [E _]. destruct (int_ok 4194304 ltac:(lia)) as [E1 _].
  split; [exact E |]. split; [exact E1 |]. split; [intros; split; [apply run_22m | apply run_22] |].
  split.
  - value 1281621210%Z. value 1281621209%Z. rewrite V, V0. lra.
  - rewrite E. apply Rlt_le_trans with (ln (bpow radix2 22 * / (11 / 10))).
    + rewrite ln_mult, LogPoly.ln_bpow, ln_Rinv by (try apply bpow_gt_0; lra). pose proof ln2_lo.
      assert (ln (11 / 10) < / 10). { pose proof (exp_ineq1 (/ 10) ltac:(lra)). rewrite <- (ln_exp (/ 10)). apply ln_increasing; lra. } lra.
    + left. apply ln_increasing; change (bpow radix2 22) with 4194304; lra.
Qed.
Lemma drop_4 : exists y y1 r r1 : binary32, v32 y1 = 4 /\ 3 < v32 y < v32 y1 /\
  (forall daz libm, fast_lgamma32 daz libm y = Ok r /\ fast_lgamma32 daz libm y1 = Ok r1) /\
  v32 r1 + / 100000 < v32 r.
Proof.
  exists (b32_of_bits 1082130431), (b32_of_bits 1082130432), (b32_of_bits 1071994815), (b32_of_bits 1071994710).
  value 1082130431%Z. value 1082130432%Z. value 1071994815%Z. value 1071994710%Z.
  split; [lra |]. split; [lra |]. split; [intros; split; [apply run_4m | apply run_4] | lra].
Qed.

(** Outside the range of the table fast_lgamma_nu is left to libm. *)
Lemma lgamma_nu_outside libm (y : binary32) : fin32 y = true -> Rabs (v32 y) <= bpow radix2 100 ->
  v32 y < / 16 \/ bpow radix2 32 <= v32 y ->
  exists p q : binary32, fast_lgamma_nu32 libm y = Ok (b32_minus mode_NE (libm p) (libm q)) /\ fin32 p = true /\ fin32 q = true /\
    Rabs (v32 q - v32 y / 2) <= / 16777216 * Rabs (v32 y / 2) + bpow radix2 (-150) /\
    Rabs (v32 p - (v32 y / 2 + / 2)) <= / 4194304 * (Rabs (v32 y / 2) + / 2).
Proof.
  intros F R O. unfold fast_lgamma_nu32. replace (b32_ltb y b_1_16 || b32_leb b_2_32 y)%bool with true.
  2:{ symmetry. apply orb_true_iff. destruct O as [O | O]; [left; apply ltb_r | right; apply leb_r]; try assumption; try reflexivity; [pose proof v_1_16 as V | pose proof v_2_32 as V]; lra. }
  assert (v32 b_half = / 2) as H2 by (pose proof (vb 1056964608%Z (8388608, -24)%Z ltac:(vm_compute; reflexivity)) as V; unfold b_half; rewrite V; unfold cval; cbn; lra).
  assert (fin32 b_half = true) as FH by reflexivity.
  assert (Rabs (v32 y / 2) <= bpow radix2 100) as R2 by (unfold Rdiv; rewrite Rabs_mult, (Rabs_pos_eq (/ 2)) by lra; pose proof (Rabs_pos (v32 y)); lra).
  assert (4 * bpow radix2 100 <= bpow radix2 127) as B by (change 4 with (bpow radix2 2); rewrite <- bpow_plus; apply bpow_le; lia).
  assert (1 <= bpow radix2 100) as B1 by (apply (bpow_le radix2 0 100); lia).
  destruct (mult_ok y b_half F FH) as [Eh Fh]; [rewrite H2; change (v32 y * / 2) with (v32 y / 2); lra |].
  rewrite H2 in Eh. change (v32 y * / 2) with (v32 y / 2) in Eh. set (h := b32_mult mode_NE y b_half) in *. clearbody h.
  pose proof (rnd_err (v32 y / 2)) as E1. rewrite <- Eh in E1. unfold u24 in E1. assert (eta32 <= / 1073741824) as ET by (unfold eta32; apply (bpow_le radix2 (-150) (-30)); lia).
  set (a := v32 y / 2) in *. clearbody a. pose proof (Rabs_pos a) as Pa.
  assert (Rabs (v32 h) <= 2 * Rabs a + / 16777216) as Hh.
  { replace (v32 h) with ((v32 h - a) + a) by ring. eapply Rle_trans; [apply Rabs_triang |]. lra. }
  assert (Rabs (v32 h + / 2) <= Rabs (v32 h) + / 2) as Hp by (eapply Rle_trans; [apply Rabs_triang |]; rewrite (Rabs_pos_eq (/ 2)); lra).
  destruct (plus_ok h b_half Fh FH) as [Ep Fp]; [rewrite H2; lra |]. rewrite H2 in Ep.
  pose proof (rnd_err (v32 h + / 2)) as E2. rewrite <- Ep in E2. unfold u24 in E2.
  exists (b32_plus mode_NE h b_half), h. split; [reflexivity |]. split; [exact Fp |]. split; [exact Fh |]. split; [exact E1 |].
  set (p := v32 (b32_plus mode_NE h b_half)) in *. clearbody p. replace (p - (a + / 2)) with ((p - (v32 h + / 2)) + (v32 h - a)) by ring.
  eapply Rle_trans; [apply Rabs_triang |]. lra.
Qed.
