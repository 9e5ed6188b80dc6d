(** The scores of bb.hpp, bnb.hpp and gp.hpp built from the estimates of FloatCountScores. *)
From Coq Require Import Reals Lra ZArith Lia Bool List.
From Flocq Require Import Core BinarySingleNaN Binary Bits.
From Verif.model Require Import Base Num FastExp FloatNum FastLog FastLgamma FloatStirling Student FloatCount Component BB GP BNB.
From Verif.spec Require Import LogSpec DrawSpec StudentSpec CountSpec.
From Verif.proof Require Import LnBounds LgammaBound FastExpProof FloatScoresProof FastLogProof FloatRel FloatStirlingProof FloatStirlingApprox StudentProof StudentGamma FloatPredictive FloatCountScores FloatNichProof.
Local Open Scope R_scope.

Section Models.
  Variables (tbl : list Z) (lg : R -> R) (daz : bool) (libm log2 sq : binary32 -> binary32) (pw : binary32 -> binary32 -> binary32).
  Hypothesis HG : is_log_gamma lg.
  Hypothesis HL : good_lgammaf lg libm.
  Hypothesis H2 : good_log2 log2.
  Definition NC : Num binary32 := NumC tbl log2 daz libm sq pw.

  Lemma small_five k (x : binary32) X : near k x X -> k <= 5 -> near 5 x X.
  Proof. intros N H. apply near_weaken with k; [exact N | lra]. Qed.

  Lemma bb_data_close (sh : bb_shared binary32) (g : bb_group) : moderate (bb_alpha sh) -> moderate (bb_beta sh) -> (0 <= bb_heads g)%Z -> (0 <= bb_tails g)%Z ->
    let a := b2r (bb_alpha sh) in let b := b2r (bb_beta sh) in let c := a + IZR (bb_heads g) in let d := b + IZR (bb_tails g) in
    c + d <= bpow radix2 20 -> six_goal lg a b c d (bb_score_data (N:=NC) sh g).
  Proof using HG HL.
    intros Ma Mb Hh Ht a b c d U. destruct (self_near _ Ma) as [Na Ba]. destruct (self_near _ Mb) as [Nb Bb]. fold a in Na, Ba. fold b in Nb, Bb.
    pose proof (btw_pos _ _ _ Ba). pose proof (btw_pos _ _ _ Bb). assert (0 <= IZR (bb_heads g)) by (apply (IZR_le 0); lia). assert (0 <= IZR (bb_tails g)) by (apply (IZR_le 0); lia).
    destruct (post_near (bb_alpha sh) (bb_heads g) Ma Hh ltac:(fold a; unfold c, d in U; lra)) as (Nc & Bc & _). destruct (post_near (bb_beta sh) (bb_tails g) Mb Ht ltac:(fold b; unfold c, d in U; lra)) as (Nd & Bd & _).
    fold a in Nc, Bc. fold c in Nc, Bc. fold b in Nd, Bd. fold d in Nd, Bd.
    destruct (both_near _ _ _ _ _ _ Na Nb ltac:(lra) ltac:(lra) Ba Bb ltac:(unfold c, d in U; lra)) as [Nab Bab]. destruct (both_near _ _ _ _ _ _ Nc Nd ltac:(lra) ltac:(lra) Bc Bd U) as [Ncd Bcd].
    unfold bb_score_data. cbn [nof nlgamma nadd nsub NC NumC NumB].
    apply (six_coins lg daz libm HG HL a b c d); try assumption; (eapply small_five; [eassumption | lra]).
  Qed.

  Lemma bnb_mult (r n : Z) : (0 <= r <= 1048576)%Z -> (0 <= n < 4294967296)%Z -> (r * n <= 1048576)%Z ->
    fin (b32_mult mode_NE (float_of_int r) (float_of_int n)) = true /\ b2r (b32_mult mode_NE (float_of_int r) (float_of_int n)) = b2r (float_of_int (r * n)).
  Proof.
    intros Hr Hn Hm. destruct (int_ok r ltac:(lia)) as [Vr Fr]. destruct (int_ok (r * n) ltac:(lia)) as [Vm Fm].
    assert (exists t, fin (float_of_int n) = true /\ b2r (float_of_int n) = t /\ IZR r * t = IZR (r * n)) as (t & Fn & Vn & Et).
    { destruct (Z.eq_dec r 0) as [-> | Hr0].
      - destruct (int_rnd n ltac:(lia)) as [E F]. exists (b2r (float_of_int n)). split; [exact F |]. split; [reflexivity |]. rewrite Z.mul_0_l, Rmult_0_l. reflexivity.
      - destruct (int_ok n ltac:(nia)) as [Vn Fn]. exists (IZR n). split; [exact Fn |]. split; [exact Vn |]. rewrite mult_IZR. reflexivity. }
    destruct (mult_ok (float_of_int r) (float_of_int n) Fr Fn) as [E F].
    { rewrite Vr, Vn, Et, Rabs_pos_eq by (apply (IZR_le 0); nia). apply Rle_trans with (bpow radix2 20); [change (bpow radix2 20) with 1048576; apply IZR_le; lia | apply bpow_le; lia]. }
    split; [exact F |]. rewrite E, Vr, Vn, Et, <- Vm. apply rnd_same.
  Qed.
  Lemma bnb_post (sh : bnb_shared binary32) (g : bnb_group) : moderate (bnb_alpha sh) -> moderate (bnb_beta sh) ->
    (0 <= bnb_r sh <= 1048576)%Z -> (0 <= bnb_count g < 4294967296)%Z -> (0 <= bnb_sum g)%Z ->
    let a := b2r (bnb_alpha sh) + IZR (bnb_r sh * bnb_count g) in let b := b2r (bnb_beta sh) + IZR (bnb_sum g) in
    a + b <= bpow radix2 20 -> let post := bnb_plus_group (N:=NC) sh g in
    near 2 (bnb_alpha post) a /\ btw (-20) 20 a /\ near 2 (bnb_beta post) b /\ btw (-20) 20 b.
  Proof.
    intros Ma Mb Hr Hn Hs a b U post. pose proof (proj2 Ma) as La. pose proof (proj2 Mb) as Lb. fold (b2r (bnb_alpha sh)) in La. fold (b2r (bnb_beta sh)) in Lb. pose proof (bpow_gt_0 radix2 (-20)).
    assert (0 <= bnb_r sh * bnb_count g)%Z as Hm by nia. assert (0 <= IZR (bnb_r sh * bnb_count g)) by (apply (IZR_le 0); lia). assert (0 <= IZR (bnb_sum g)) by (apply (IZR_le 0); lia).
    destruct (post_near (bnb_alpha sh) (bnb_r sh * bnb_count g) Ma Hm ltac:(unfold a, b in U; lra)) as (Na & Ba & _). destruct (post_near (bnb_beta sh) (bnb_sum g) Mb Hs ltac:(unfold a, b in U; lra)) as (Nb & Bb & _).
    fold a in Na, Ba. fold b in Nb, Bb. split; [| split; [exact Ba | split; [exact Nb | exact Bb]]].
    assert (bnb_r sh * bnb_count g <= 1048576)%Z as Hm2 by (apply le_IZR; change (bpow radix2 20) with 1048576 in U; unfold a, b in U; lra).
    destruct (bnb_mult (bnb_r sh) (bnb_count g) Hr Hn Hm2) as [Fm Vm]. unfold post, bnb_plus_group. cbn [nof nadd nmul NC NumC NumB bnb_alpha].
    destruct (int_ok (bnb_r sh * bnb_count g) ltac:(lia)) as [Vi Fi]. destruct Ma as [Fa _].
    assert (Rabs (b2r (bnb_alpha sh) + IZR (bnb_r sh * bnb_count g)) <= bpow radix2 127) as R.
    { rewrite Rabs_pos_eq by (fold a; pose proof (btw_pos _ _ _ Ba); lra). apply Rle_trans with (bpow radix2 20); [apply Ba | apply bpow_le; lia]. }
    destruct (plus_ok (bnb_alpha sh) (float_of_int (bnb_r sh * bnb_count g)) Fa Fi ltac:(rewrite Vi; exact R)) as [E1 F1].
    destruct (plus_ok (bnb_alpha sh) _ Fa Fm ltac:(rewrite Vm, Vi; exact R)) as [E2 F2].
    apply (near_ext _ _ _ _ Na F2). rewrite E1, E2, Vm. reflexivity.
  Qed.

  Section BnbScores.
    Variables (sh : bnb_shared binary32) (g : bnb_group).
    Hypotheses (Ma : moderate (bnb_alpha sh)) (Mb : moderate (bnb_beta sh)) (Hr : (0 <= bnb_r sh <= 1048576)%Z)
      (Hn : (0 <= bnb_count g < 4294967296)%Z) (Hs : (0 <= bnb_sum g)%Z).
    Let a0 := b2r (bnb_alpha sh).
    Let b0 := b2r (bnb_beta sh).
    Let a := a0 + IZR (bnb_r sh * bnb_count g).
    Let b := b0 + IZR (bnb_sum g).

    Lemma bnb_data : a + b <= bpow radix2 20 -> six_goal lg a0 b0 a b (bnb_score_data (N:=NC) sh g).
    Proof using HG HL Ma Mb Hr Hn Hs.
      intros U. destruct (bnb_post sh g Ma Mb Hr Hn Hs U) as (Nc & Bc & Nd & Bd). fold a0 in Nc, Bc. fold a in Nc, Bc. fold b0 in Nd, Bd. fold b in Nd, Bd.
      destruct (self_near _ Ma) as [Na Ba]. destruct (self_near _ Mb) as [Nb Bb]. fold a0 in Na, Ba. fold b0 in Nb, Bb.
      assert (0 <= IZR (bnb_r sh * bnb_count g)) by (apply (IZR_le 0); nia). assert (0 <= IZR (bnb_sum g)) by (apply (IZR_le 0); lia).
      destruct (both_near _ _ _ _ _ _ Na Nb ltac:(lra) ltac:(lra) Ba Bb ltac:(unfold a, b in U; lra)) as [Nab Bab]. destruct (both_near _ _ _ _ _ _ Nc Nd ltac:(lra) ltac:(lra) Bc Bd U) as [Ncd Bcd].
      unfold bnb_score_data. cbv zeta. set (post := bnb_plus_group sh g) in *. cbn [nof nlgamma nadd nsub NC NumC NumB].
      apply (six_value lg daz libm HG HL a0 b0 a b); try assumption; (eapply small_five; [eassumption | lra]).
    Qed.
    Variable v : Z.
    Hypothesis Hv : (0 <= v)%Z.
    Let a' := a + IZR (bnb_r sh).
    Let b' := b + IZR v.
    Lemma bnb_value : a' + b' <= bpow radix2 20 -> six_goal lg a b a' b' (bnb_score_value (N:=NC) sh g v) /\
      six_goal lg a b a' b' (bnb_scorer_eval (N:=NC) (bnb_scorer_init (N:=NC) sh g) v).
    Proof using HG HL Ma Mb Hr Hn Hs Hv.
      intros U. assert (0 <= IZR (bnb_r sh)) by (apply (IZR_le 0); lia). assert (0 <= IZR v) by (apply (IZR_le 0); lia).
      destruct (bnb_post sh g Ma Mb Hr Hn Hs ltac:(fold a0 b0 a b; unfold a', b' in U; lra)) as (Na & Ba & Nb & Bb). fold a0 in Na, Ba. fold a in Na, Ba. fold b0 in Nb, Bb. fold b in Nb, Bb.
      pose proof (btw_pos _ _ _ Ba). pose proof (btw_pos _ _ _ Bb).
      destruct (grow_near 2 _ _ (bnb_r sh) Na ltac:(lra) ltac:(lra) Ba ltac:(lia) ltac:(unfold a', b' in U; lra)) as [Nc Bc]. destruct (grow_near 2 _ _ v Nb ltac:(lra) ltac:(lra) Bb Hv ltac:(unfold a', b' in U; lra)) as [Nd Bd].
      fold a' in Nc, Bc. fold b' in Nd, Bd.
      destruct (both_near _ _ _ _ _ _ Na Nb ltac:(lra) ltac:(lra) Ba Bb ltac:(unfold a', b' in U; lra)) as [Nab Bab]. destruct (both_near _ _ _ _ _ _ Nc Nd ltac:(lra) ltac:(lra) Bc Bd U) as [Ncd Bcd].
      unfold bnb_score_value, bnb_scorer_eval, bnb_scorer_init. cbv zeta. set (post := bnb_plus_group sh g) in *. cbn [bns_score bns_post_beta bns_alpha nof nlgamma nadd nsub NC NumC NumB].
      split; [apply (six_value lg daz libm HG HL a b a' b') | apply (six_cached lg daz libm HG HL a b a' b')]; try assumption; (eapply small_five; [eassumption | lra]).
    Qed.
  End BnbScores.

  (** logarithms *)
  Lemma log_est k (x : binary32) X : near k x X -> k <= 6 -> btw (-30) 33 X -> est (75 / 1000000) 23 (fast_log32 log2 x) (ln X).
  Proof using H2.
    intros N K B. destruct (near_log log2 k x X H2 N ltac:(apply (btw_usual _ _ _ B); lia)) as [F H]. destruct N as (_ & _ & _ & K0 & _).
    assert (k * e23 <= 72 / 100000000) as K2 by (unfold e23; lra). unfold log_band in H. destruct (btw_ln _ _ _ B ltac:(lia) ltac:(lia)) as [L1 L2]. pose proof ln2_hi. pose proof ln2_lo.
    split; [split; [exact F |] |]; [apply Rabs_le; lra |]. split; [apply Rabs_le; lra | lra].
  Qed.
  Lemma near_est k (x : binary32) X : near k x X -> k <= 6 -> est (73 / 100000000 * X) X x X.
  Proof. intros N K. pose proof (near_dist k x X N K) as D. destruct N as (F & _ & P & _). split; [split; [exact F | exact D] |]. rewrite Rabs_pos_eq by lra. lra. Qed.
  Lemma fact_est v : INR v <= bpow radix2 20 -> est (45 / 10000000 * logfact v + / 1000000000) (logfact v) (log_factorial32 daz libm (Z.of_nat v)) (logfact v) /\ 0 <= logfact v <= 15000000 /\ (Z.of_nat v <= 1048576)%Z.
  Proof.
    intros H. assert (Z.of_nat v <= 1048576)%Z as Z by (apply le_IZR; rewrite <- INR_IZR_INZ; exact H). destruct (fact32 daz libm v Z) as (r & E & A). pose proof (logfact_nonneg v) as P.
    split; [| split; [| exact Z]].
    - unfold log_factorial32. rewrite E. cbn [or_nan]. split; [exact A |]. rewrite Rabs_pos_eq by exact P. lra.
    - split; [exact P |]. pose proof (logfact_le 1048576 v ltac:(lra) H) as U. assert (ln 1048576 <= 14).
      { replace 1048576 with (2 ^ 20) by lra. rewrite ln_pow by lra. replace (INR 20) with 20 by (rewrite INR_IZR_INZ; reflexivity). pose proof ln2_hi. lra. }
      pose proof (pos_INR v). assert (INR v * ln 1048576 <= 1048576 * 14) by (apply Rmult_le_compat; try lra; [rewrite <- ln_1; apply ln_le'; lra | exact H]). lra.
  Qed.
  Lemma fact_zero : logfact 0 = 0.
  Proof. unfold logfact. cbn. apply ln_1. Qed.

  Lemma gp_value (sh : gp_shared binary32) (g : gp_group binary32) (v : nat) : moderate (gp_alpha sh) -> ordinary (gp_inv_beta sh) ->
    (0 <= gp_sum g)%Z -> (0 <= gp_count g <= 4294967296)%Z ->
    let A := b2r (gp_alpha sh) + IZR (gp_sum g) in let B := b2r (gp_inv_beta sh) + IZR (gp_count g) in
    A + INR v <= bpow radix2 20 ->
    fin (gp_score_value (N:=NC) sh g (Z.of_nat v)) = true /\
    Rabs (b2r (gp_score_value (N:=NC) sh g (Z.of_nat v)) - gamma_poisson lg A B v) <=
      6 / 1000000 * (Rabs (lg A) + Rabs (lg (A + INR v)) + ln (INR (fact v))) + 2 / 10000 * (A + INR v) + / 1000.
  Proof using HG HL H2.
    intros Ma Ob Hs Hn A B U. pose proof (pos_INR v) as Pv. destruct (post_near (gp_alpha sh) (gp_sum g) Ma Hs ltac:(fold A; lra)) as (Na & Ba & _). fold A in Na, Ba.
    destruct (near_plus_count (gp_inv_beta sh) (gp_count g) Ob Hn) as [Nb Bb]. fold B in Nb, Bb. pose proof (btw_pos _ _ _ Ba) as PA. pose proof (btw_pos _ _ _ Bb) as PB.
    destruct (fact_est v ltac:(lra)) as (Ef & Mf & Zv).
    assert (1 + B <= bpow radix2 33) as UB.
    { unfold B. destruct Ob as [_ [_ Ob]]. fold (b2r (gp_inv_beta sh)) in Ob. assert (IZR (gp_count g) <= 4294967296) by (apply IZR_le; lia). change (bpow radix2 33) with 8589934592. change (bpow radix2 30) with 1073741824 in Ob. lra. }
    assert (btw (-30) 33 (1 + B)) as B1 by (split; [apply Rle_trans with (bpow radix2 0); [apply bpow_le; lia | cbn; lra] | exact UB]).
    destruct (int_ok 1 ltac:(lia)) as [V1 F1].
    assert (near 3 (b32_plus mode_NE (float_of_int 1) (b32_plus mode_NE (gp_inv_beta sh) (float_of_int (gp_count g)))) (1 + B)) as N1.
    { replace 3 with (2 + 1) by ring. apply near_sum with 0; try lra; [rewrite <- V1; apply near_self; [exact F1 | rewrite V1; lra] | exact Nb | apply (btw_usual _ _ _ B1); lia]. }
    destruct (grow_near 2 _ _ (Z.of_nat v) Na ltac:(lra) ltac:(lra) Ba ltac:(lia) ltac:(rewrite <- INR_IZR_INZ; lra)) as [Nv Bv]. rewrite <- INR_IZR_INZ in Nv, Bv.
    destruct (lg_est lg daz libm HG HL _ _ _ Na ltac:(lra) Ba) as (Ea & MLa & Ra). destruct (lg_est lg daz libm HG HL _ _ _ Nv ltac:(lra) Bv) as (Ev & MLv & Rv).
    pose proof (log_est _ _ _ N1 ltac:(lra) B1) as E1. pose proof (near_est _ _ _ Na ltac:(lra)) as EA.
    destruct (cached_close log2 H2 2 3 _ _ _ _ Nb N1 ltac:(lra) ltac:(lra) ltac:(apply (btw_weaken _ _ _ _ _ Bb); lia) B1) as (PQ & FQ & CQ).
    assert (est (/ 10000) 23 (b32_plus mode_NE (fast_log32 log2 (b32_plus mode_NE (gp_inv_beta sh) (float_of_int (gp_count g))))
        (b32_opp (fast_log32 log2 (b32_plus mode_NE (float_of_int 1) (b32_plus mode_NE (gp_inv_beta sh) (float_of_int (gp_count g))))))) (ln (B / (1 + B)))) as EQ.
    { split; [split; [exact FQ | exact CQ] |]. split; [| lra].
      assert (ln (B / (1 + B)) = ln B - ln (1 + B)) as -> by (unfold Rdiv; rewrite ln_mult, ln_Rinv; try lra; apply Rinv_0_lt_compat; lra).
      assert (ln B <= ln (1 + B)) by (apply ln_le'; lra). destruct (btw_ln _ _ _ Bb ltac:(lia) ltac:(lia)) as [L1 L2]. destruct (btw_ln _ _ _ B1 ltac:(lia) ltac:(lia)) as [L3 L4]. pose proof ln2_hi. pose proof ln2_lo.
      destruct (Rle_lt_dec B 1) as [S | S].
      - assert (ln (1 + B) <= ln 2) by (apply ln_le'; lra). apply Rabs_le. lra.
      - assert (ln (1 + B) <= ln (B + B)) as W by (apply ln_le'; lra). replace (B + B) with (2 * B) in W by ring. rewrite ln_mult in W by lra. apply Rabs_le. lra. }
    assert (est 0 (INR v) (float_of_int (Z.of_nat v)) (INR v)) as EV by (split; [apply app_nat; lia | rewrite Rabs_pos_eq by exact Pv; lra]).
    change (bpow radix2 20) with 1048576 in U.
    destruct (proj2 lit_vals) as (_ & L1 & _).
    unfold gp_score_value, gp_scorer_eval, gp_scorer_init, gp_plus_group. cbn [gps_score gps_post_alpha gps_coeff gp_alpha gp_inv_beta nof nlit nlog nlgamma nlogfact nadd nsub nmul nneg NC NumC NumB].
    rewrite L1. fold (lgam daz libm (b32_plus mode_NE (gp_alpha sh) (float_of_int (gp_sum g)))). fold (lgam daz libm (b32_plus mode_NE (b32_plus mode_NE (gp_alpha sh) (float_of_int (gp_sum g))) (float_of_int (Z.of_nat v)))).
    set (q := ln (B / (1 + B))) in *. set (w := ln (1 + B)) in *.
    pose proof (est_mult _ _ _ _ _ _ _ _ EA EQ ltac:(lra)) as S1. pose proof (est_plus _ _ _ _ _ _ _ _ (est_opp _ _ _ _ Ea) S1 ltac:(lra)) as S2.
    pose proof (est_plus _ _ _ _ _ _ _ _ S2 Ev ltac:(lra)) as S3. pose proof (est_minus _ _ _ _ _ _ _ _ S3 Ef ltac:(lra)) as S4.
    pose proof (est_mult _ _ _ _ _ _ _ _ (est_opp _ _ _ _ E1) EV ltac:(lra)) as S5. pose proof (est_plus _ _ _ _ _ _ _ _ S4 S5 ltac:(lra)) as S6.
    destruct S6 as ([F6 S6] & _). split; [exact F6 |]. unfold gamma_poisson. fold q w. unfold logfact in *.
    match type of S6 with Rabs (_ - ?u) <= _ => match goal with |- Rabs (_ - ?v) <= _ => replace v with u by (unfold q, w; ring) end end. eapply Rle_trans; [exact S6 |].
    pose proof (Rabs_pos (lg A)). pose proof (Rabs_pos (lg (A + INR v))). lra.
  Qed.

  Lemma facts_le l : 0 <= sum_log_fact l <= logfact (list_sum l).
  Proof.
    induction l as [| v l IH]; cbn [sum_log_fact list_sum fold_right]; [rewrite fact_zero; lra |].
    change (fold_right Nat.add 0%nat l) with (list_sum l). destruct (ln_binomial (v + list_sum l) v ltac:(lia)) as (_ & P & _ & Q). replace (v + list_sum l - v)%nat with (list_sum l) in Q by lia.
    unfold logfact in *. lra.
  Qed.
  Lemma facts_mag l : INR (list_sum l) <= bpow radix2 20 -> 0 <= sum_log_fact l <= 15000000.
  Proof. intros H. pose proof (facts_le l). destruct (fact_est (list_sum l) H) as (_ & M & _). lra. Qed.

  Definition prod_err (k S : R) : R := (5 / 1000000 + 7 / 100000000 * k) * S + 2 / 1000000000 * k.
  Lemma prod_step k S f : 0 <= k <= 1048576 -> 0 <= S -> 0 <= f ->
    prod_err k S + (45 / 10000000 * f + / 1000000000) + (S + f + prod_err k S + (45 / 10000000 * f + / 1000000000)) / 16777216 + / 1000000000000 <= prod_err (k + 1) (S + f).
  Proof.
    intros Hk HS Hf. unfold prod_err. assert (0 <= k * S <= 1048576 * S) as T by (split; [apply Rmult_le_pos | apply Rmult_le_compat_r]; lra).
    assert (0 <= k * f) as T2 by (apply Rmult_le_pos; lra).
    replace ((5 / 1000000 + 7 / 100000000 * k) * S) with (5 / 1000000 * S + 7 / 100000000 * (k * S)) by ring.
    replace ((5 / 1000000 + 7 / 100000000 * (k + 1)) * (S + f)) with (5 / 1000000 * (S + f) + 7 / 100000000 * (k * S + k * f + S + f)) by ring.
    generalize dependent (k * S). generalize dependent (k * f). intros. lra.
  Qed.
  Lemma prod_mag k S : 0 <= k <= 1048576 -> 0 <= S <= 15000000 -> 0 <= prod_err k S <= 2000000.
  Proof.
    intros Hk HS. unfold prod_err. assert (0 <= k * S <= 1048576 * 15000000) as T by (split; [apply Rmult_le_pos | apply Rmult_le_compat]; lra).
    replace ((5 / 1000000 + 7 / 100000000 * k) * S) with (5 / 1000000 * S + 7 / 100000000 * (k * S)) by ring. lra.
  Qed.

  Definition gp_at (g : gp_group binary32) (k s : nat) (S : R) : Prop :=
    gp_count g = Z.of_nat k /\ gp_sum g = Z.of_nat s /\ est (prod_err (INR k) S) S (gp_log_prod g) S.
  Lemma gp_adds dl sh l : forall (g : gp_group binary32) k s S, gp_at g k s S -> (Z.of_nat (k + length l) <= 1048576)%Z -> INR (s + list_sum l) <= bpow radix2 20 -> 0 <= S -> S + sum_log_fact l <= 15000000 ->
    exists g', c_adds (GP binary32 (N:=NC)) dl sh g (map Z.of_nat l) = Ok g' /\ gp_at g' (k + length l) (s + list_sum l) (S + sum_log_fact l).
  Proof using.
    induction l as [| v l IH]; intros g k s S G Hk Hs PS HS.
    - exists g. split; [reflexivity |]. cbn [length list_sum fold_right sum_log_fact]. rewrite !Nat.add_0_r, Rplus_0_r. exact G.
    - cbn [length list_sum fold_right sum_log_fact] in *. change (fold_right Nat.add 0%nat l) with (list_sum l) in *. pose proof (facts_le l) as [PL _].
      assert (INR v <= bpow radix2 20) as Hv by (eapply Rle_trans; [| exact Hs]; apply le_INR; lia). destruct (fact_est v Hv) as (Ef & Mf & Zv). unfold logfact in *.
      assert (Z.of_nat (s + (v + list_sum l)) <= 1048576)%Z as Zs by (apply le_IZR; rewrite <- INR_IZR_INZ; exact Hs).
      assert (0 <= INR k <= 1048576) as Rk by (split; [apply pos_INR | rewrite INR_IZR_INZ; apply IZR_le; lia]).
      pose proof (prod_mag (INR k) S Rk ltac:(lra)) as PM. destruct G as (Gc & Gs & Gp).
      pose proof (est_plus _ _ _ _ _ _ _ _ Gp Ef ltac:(lra)) as E.
      destruct (IH (mk_gp (u32 (gp_count g + 1)) (u32 (gp_sum g + Z.of_nat v)) (b32_plus mode_NE (gp_log_prod g) (log_factorial32 daz libm (Z.of_nat v)))) (k + 1)%nat (s + v)%nat (S + ln (INR (fact v)))) as (g' & R & G').
      + unfold gp_at. cbn [gp_count gp_sum gp_log_prod]. rewrite Gc, Gs. unfold u32. rewrite !Z.mod_small by lia. split; [lia |]. split; [lia |].
        eapply est_weaken; [exact E | | lra]. rewrite plus_INR. apply prod_step; try assumption. lra.
      + lia.
      + replace (s + v + list_sum l)%nat with (s + (v + list_sum l))%nat by lia. exact Hs.
      + lra.
      + lra.
      + exists g'. split; [exact R |]. replace (k + Datatypes.S (length l))%nat with (k + 1 + length l)%nat by lia. replace (s + (v + list_sum l))%nat with (s + v + list_sum l)%nat by lia.
        replace (S + (ln (INR (fact v)) + sum_log_fact l)) with (S + ln (INR (fact v)) + sum_log_fact l) by ring. exact G'.
  Qed.

  Lemma gp_data dl (sh : gp_shared binary32) (l : list nat) : moderate (gp_alpha sh) -> ordinary (gp_inv_beta sh) -> (Z.of_nat (length l) <= 1048576)%Z ->
    let alpha := b2r (gp_alpha sh) in let A := alpha + INR (list_sum l) in A <= bpow radix2 20 ->
    exists g, c_filled (GP binary32 (N:=NC)) dl sh (map Z.of_nat l) = Ok g /\
      fin (gp_log_prod g) = true /\ Rabs (b2r (gp_log_prod g) - sum_log_fact l) <= prod_err (INR (length l)) (sum_log_fact l) /\
      fin (gp_score_data (N:=NC) sh g) = true /\
      Rabs (b2r (gp_score_data (N:=NC) sh g) - gamma_poisson_data lg alpha (b2r (gp_inv_beta sh)) l) <=
        6 / 1000000 * (Rabs (lg alpha) + Rabs (lg A)) + 2 / 10000 * (alpha + A) + (6 / 1000000 + 7 / 100000000 * INR (length l)) * sum_log_fact l + 4 / 1000.
  Proof using HG HL H2.
    intros Ma Ob Hl alpha A U. pose proof (pos_INR (list_sum l)) as Ps. destruct (self_near _ Ma) as [N0 B0]. fold alpha in N0, B0. pose proof (btw_pos _ _ _ B0) as P0.
    assert (INR (list_sum l) <= bpow radix2 20) as Us by (unfold A in U; lra). pose proof (facts_mag l Us) as MS.
    destruct (gp_adds dl sh l (mk_gp 0 0 (float_of_int 0)) 0 0 0) as (g & R & Gc & Gs & Gp).
    { unfold gp_at, prod_err. cbn [gp_count gp_sum gp_log_prod]. split; [reflexivity |]. split; [reflexivity |]. split; [destruct (app_int 0 ltac:(lia)) as [F Q]; split; [exact F |]; cbn [INR]; lra |]. rewrite Rabs_R0. cbn [INR]. lra. }
    { exact Hl. } { exact Us. } { lra. } { lra. }
    cbn [Nat.add] in Gc, Gs, Gp. rewrite Rplus_0_l in Gp. exists g. split; [exact R |]. pose proof Gp as ([Fp Bp] & _). split; [exact Fp |]. split; [exact Bp |].
    destruct (post_near (gp_alpha sh) (gp_sum g) Ma ltac:(lia) ltac:(rewrite Gs, <- INR_IZR_INZ; exact U)) as (Na & Ba & _). rewrite Gs, <- INR_IZR_INZ in Na, Ba. fold alpha in Na, Ba. fold A in Na, Ba.
    destruct (near_plus_count (gp_inv_beta sh) (gp_count g) Ob ltac:(lia)) as [Nb Bb]. rewrite Gc, <- INR_IZR_INZ in Nb, Bb. set (beta := b2r (gp_inv_beta sh)) in *. set (B := beta + INR (length l)) in *.
    destruct (ord_near _ Ob) as [Nb0 Bb0]. fold beta in Nb0, Bb0.
    destruct (lg_est lg daz libm HG HL _ _ _ Na ltac:(lra) Ba) as (Ea & MLa & Ra). destruct (lg_est lg daz libm HG HL _ _ _ N0 ltac:(lra) B0) as (E0 & ML0 & R0).
    pose proof (near_est _ _ _ Na ltac:(lra)) as EA. assert (est 0 alpha (gp_alpha sh) alpha) as EA0.
    { destruct N0 as (F0 & _). split; [split; [exact F0 |] |]; [fold alpha; rewrite Rminus_eq_0, Rabs_R0; lra |]. rewrite Rabs_pos_eq by lra. lra. }
    pose proof (log_est _ _ _ Nb ltac:(lra) Bb) as EB. pose proof (log_est _ _ _ Nb0 ltac:(lra) ltac:(apply (btw_weaken _ _ _ _ _ Bb0); lia)) as EB0.
    assert (0 <= INR (length l) <= 1048576) as Rk by (split; [apply pos_INR | rewrite INR_IZR_INZ; apply IZR_le; lia]).
    pose proof (prod_mag _ _ Rk MS) as PM.
    unfold gp_score_data, gp_plus_group. cbv zeta. cbn [gp_alpha gp_inv_beta nof nlog nlgamma nadd nsub nmul nneg NC NumC NumB]. rewrite Gs, Gc.
    fold (lgam daz libm (b32_plus mode_NE (gp_alpha sh) (float_of_int (Z.of_nat (list_sum l))))). fold (lgam daz libm (gp_alpha sh)).
    pose proof (est_minus _ _ _ _ _ _ _ _ Ea E0 ltac:(lra)) as S1. pose proof (est_mult _ _ _ _ _ _ _ _ EA0 EB0 ltac:(lra)) as S2. pose proof (est_mult _ _ _ _ _ _ _ _ EA EB ltac:(lra)) as S3.
    pose proof (est_minus _ _ _ _ _ _ _ _ S2 S3 ltac:(lra)) as S4. pose proof (est_plus _ _ _ _ _ _ _ _ S1 S4 ltac:(lra)) as S5. pose proof (est_plus _ _ _ _ _ _ _ _ S5 (est_opp _ _ _ _ Gp) ltac:(lra)) as S6.
    destruct S6 as ([F6 S6] & _). split; [exact F6 |]. unfold gamma_poisson_data. fold A B.
    match type of S6 with Rabs (_ - ?u) <= _ => match goal with |- Rabs (_ - ?v) <= _ => replace v with u by ring end end. eapply Rle_trans; [exact S6 |].
    pose proof (Rabs_pos (lg A)). pose proof (Rabs_pos (lg alpha)). unfold prod_err. set (k := INR (length l)) in *. set (S := sum_log_fact l) in *.
    assert (0 <= k * S <= 1048576 * S) as T by (split; [apply Rmult_le_pos | apply Rmult_le_compat_r]; lra).
    replace ((6 / 1000000 + 7 / 100000000 * k) * S) with (6 / 1000000 * S + 7 / 100000000 * (k * S)) by ring.
    replace ((5 / 1000000 + 7 / 100000000 * k) * S) with (5 / 1000000 * S + 7 / 100000000 * (k * S)) by ring.
    lra.
  Qed.
End Models.
