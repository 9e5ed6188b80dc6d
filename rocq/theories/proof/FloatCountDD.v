(** DirichletDiscrete::score_data in single precision. *)
From Coq Require Import Reals Lra ZArith Lia Bool List.
From Flocq Require Import Core BinarySingleNaN Binary Bits.
From Verif.model Require Import Base Num FastExp FloatNum FastLog FastLgamma FloatStirling Student FloatCount VectorMath DD.
From Verif.spec Require Import LogSpec DrawSpec StudentSpec CountSpec.
From Verif.proof Require Import LoopProof LnBounds LgammaBound FastExpProof FloatScoresProof FastLogProof FloatRel FloatStirlingApprox StudentGamma FloatPredictive FloatPredictive2 FloatCountScores FloatCountModels FloatNichProof.
From Verif.proof Require FastLgammaMore.
From Verif.props Require Import FloatStirlingProps.
Local Open Scope R_scope.

Lemma pair_snoc f : forall al cs a c, length al = length cs -> pair_sum f (al ++ (a :: nil)) (cs ++ (c :: nil)) = pair_sum f al cs + f a c.
Proof.
  induction al as [| x al IH]; intros [| y cs] a c H; try discriminate; cbn [Datatypes.app pair_sum]; [ring |].
  rewrite IH by (cbn in H; lia). lra.
Qed.

Lemma in_firstn {T} (x : T) : forall i l, List.In x (firstn i l) -> List.In x l.
Proof. intros i l H. rewrite <- (firstn_skipn i l). apply in_or_app. now left. Qed.

Lemma near_far k x X : near k x X -> k <= 1100 -> Rabs (b2r x - X) <= 10003 / 10000 * (k * e23) * X.
Proof.
  intros (F & P & Q & K & H) L. assert (k * e23 <= 2 / 10000) as K2 by (unfold e23; lra). apply Rabs_le_inv in H.
  set (d := k * e23) in *. assert (0 <= d) by (unfold d, e23; lra).
  pose proof (ln_sub (b2r x) X P Q) as U. pose proof (ln_sub X (b2r x) Q P) as D.
  assert (b2r x - X <= d * b2r x) as A1.
  { assert ((X - b2r x) / b2r x * b2r x = X - b2r x) as E by (field; lra). assert (- d * b2r x <= (X - b2r x) / b2r x * b2r x) by (apply Rmult_le_compat_r; lra). lra. }
  assert (X - b2r x <= d * X) as A2.
  { assert ((b2r x - X) / X * X = b2r x - X) as E by (field; lra). assert (- d * X <= (b2r x - X) / X * X) by (apply Rmult_le_compat_r; lra). lra. }
  assert (d * b2r x <= 2 / 10000 * b2r x) by (apply Rmult_le_compat_r; lra). assert (b2r x <= 10003 / 10000 * X) by lra.
  assert (d * b2r x <= d * (10003 / 10000 * X)) by (apply Rmult_le_compat_l; lra). assert (0 <= d * X) by (apply Rmult_le_pos; lra). apply Rabs_le. lra.
Qed.

Section DD.
  Variables (tbl : list Z) (lg : R -> R) (daz : bool) (libm log2 sq : binary32 -> binary32) (pw : binary32 -> binary32 -> binary32).
  Hypothesis HG : is_log_gamma lg.
  Hypothesis HL : good_lgammaf lg libm.
  Notation NC := (NC tbl daz libm log2 sq pw).
  Notation lgam := (lgam daz libm).

  Lemma lg_lip L m : forall a b, 0 < a <= b -> b - a <= INR m -> Rabs (ln a) <= L -> Rabs (ln b) <= L -> Rabs (lg b - lg a) <= (b - a) * (2 * L) + (ln b - ln a).
  Proof using HG.
    induction m as [| m IH]; intros a b H S A B.
    - cbn [INR] in S. assert (b = a) as -> by lra. rewrite !Rminus_eq_0, Rabs_R0. lra.
    - destruct (Rle_lt_dec (b - a) 1) as [D | D].
      + eapply Rle_trans; [apply (lg_step lg HG a b H D) |]. assert ((b - a) * (Rabs (ln a) + Rabs (ln b)) <= (b - a) * (2 * L)) by (apply Rmult_le_compat_l; lra). lra.
      + rewrite S_INR in S. assert (ln a <= ln (b - 1)) by (apply ln_le'; lra). assert (ln (b - 1) <= ln b) by (apply ln_le'; lra).
        assert (Rabs (ln (b - 1)) <= L) as C by (apply Rabs_le; apply Rabs_le_inv in A; apply Rabs_le_inv in B; lra).
        pose proof (IH a (b - 1) ltac:(lra) ltac:(lra) A C) as I1. pose proof (lg_step lg HG (b - 1) b ltac:(lra) ltac:(lra)) as I2.
        replace (lg b - lg a) with ((lg b - lg (b - 1)) + (lg (b - 1) - lg a)) by ring. eapply Rle_trans; [apply Rabs_triang |].
        replace (b - (b - 1)) with 1 in I2 by ring. replace ((b - a) * (2 * L)) with ((b - 1 - a) * (2 * L) + 2 * L) by ring. lra.
  Qed.
  Lemma lg_lin x : bpow radix2 (-20) <= x <= bpow radix2 20 -> Rabs (lg x) <= 14 * x + 45.
  Proof using HG.
    intros H. pose proof (bpow_gt_0 radix2 (-20)) as P.
    assert (forall y, 3 <= y -> Rabs (lg y) <= y * ln y + 2) as K.
    { intros y Hy. pose proof (FastLgammaMore.lg_close lg HG 3 y ltac:(lra)) as C.
      assert (lg 3 = ln 2) as E by (replace 3 with (2 + 1) by ring; rewrite (lg_rec lg HG), (lg_two lg HG) by lra; ring).
      rewrite E in C. pose proof ln2_hi. pose proof ln2_lo. assert (ln 2 <= ln y) by (apply ln_le'; lra). apply Rabs_le_inv in C. apply Rabs_le. split; nra. }
    destruct (Rle_lt_dec 3 x) as [L | L].
    - eapply Rle_trans; [exact (K x L) |]. pose proof (ln_pow2 20 x ltac:(lra)). pose proof ln2_hi.
      assert (x * ln x <= x * 14) by (apply Rmult_le_compat_l; lra). lra.
    - assert (0 < x) as Px by lra. destruct H as [H _]. pose proof (K (x + 1 + 1 + 1) ltac:(lra)) as C. rewrite !(lg_rec lg HG) in C by lra.
      pose proof (ln_pow2 3 (x + 1 + 1 + 1) ltac:(change (bpow radix2 3) with 8; lra)) as L1. pose proof (ln_pow2 3 (x + 1 + 1) ltac:(change (bpow radix2 3) with 8; lra)) as L2. pose proof (ln_pow2 3 (x + 1) ltac:(change (bpow radix2 3) with 8; lra)) as L3.
      pose proof (ln_pow2 2 x ltac:(change (bpow radix2 2) with 4; lra)) as L4. pose proof ln2_hi. pose proof ln2_lo.
      assert (- 20 * ln 2 <= ln x) as L5.
      { replace (-20 * ln 2) with (ln (bpow radix2 (-20))); [apply ln_le'; lra |]. rewrite bpow_exp, ln_exp. reflexivity. }
      assert (0 <= ln (x + 1)) by (rewrite <- ln_1; apply ln_le'; lra). assert (0 <= ln (x + 1 + 1)) by (rewrite <- ln_1; apply ln_le'; lra).
      assert (0 <= ln (x + 1 + 1 + 1)) by (rewrite <- ln_1; apply ln_le'; lra).
      assert ((x + 1 + 1 + 1) * ln (x + 1 + 1 + 1) <= 6 * (208 / 100)) by (apply Rmult_le_compat; lra).
      apply Rabs_le_inv in C. apply Rabs_le. lra.
  Qed.

  Lemma lg_far k (x : binary32) X : near k x X -> k <= 1100 -> btw (-20) 20 X -> Rabs (lg (b2r x) - lg X) <= 34 / 10000000 * (k * X) + 12 / 100000000 * k.
  Proof using HG.
    intros N K B. pose proof (near_far k x X N K) as D. pose proof (btw_pos _ _ _ B) as P. destruct (btw_ln _ _ _ B ltac:(lia) ltac:(lia)) as [L1 L2].
    destruct N as (F & Px & _ & K0 & H). pose proof ln2_hi. assert (k * e23 <= 14 / 100000) as K2 by (unfold e23; lra).
    assert (X <= 1048576) as U by (destruct B; change (bpow radix2 20) with 1048576 in *; lra). apply Rabs_le_inv in D. pose proof H as H'. apply Rabs_le_inv in H'.
    assert (Rabs (ln X) <= 1388 / 100) as M1 by (apply Rabs_le; lra). assert (Rabs (ln (b2r x)) <= 1388 / 100) as M2 by (apply Rabs_le; lra).
    assert (0 <= k * X) as KX by (apply Rmult_le_pos; lra). assert (10003 / 10000 * (k * e23) * X = 10003 / 10000 * e23 * (k * X)) as E by ring. rewrite E in D.
    assert (k * X <= 1100 * 1048576) as KU by (apply Rmult_le_compat; lra).
    assert (10003 / 10000 * e23 * (k * X) <= INR 200) as S.
    { replace (INR 200) with 200 by (rewrite INR_IZR_INZ; reflexivity). unfold e23. lra. }
    assert (k * e23 <= 12 / 100000000 * k) as K3 by (unfold e23; lra).
    destruct (Rle_lt_dec (b2r x) X) as [T | T].
    - rewrite Rabs_minus_sym. eapply Rle_trans; [apply (lg_lip (1388 / 100) 200); lra |]. unfold e23 in *. lra.
    - eapply Rle_trans; [apply (lg_lip (1388 / 100) 200); lra |]. unfold e23 in *. lra.
  Qed.
  Lemma lg_est_far k (x : binary32) X : near k x X -> k <= 1100 -> btw (-20) 20 X ->
    est (5 / 1000000 * Rabs (lg X) + 35 / 10000000 * (k * X) + 13 / 100000000 * k + 31 / 100000) (Rabs (lg X)) (lgam x) (lg X) /\ Rabs (lg X) <= 14 * X + 45 /\ 0 < X <= 1048576.
  Proof using HG HL.
    intros N K B. pose proof (lg_far k x X N K B) as D. pose proof (near_double _ _ _ N) as DD. pose proof (btw_pos _ _ _ B) as P.
    pose proof (lg_lin X B) as M. split; [| split; [exact M | destruct B; change (bpow radix2 20) with 1048576 in *; lra]].
    assert (bpow radix2 (-30) <= b2r x <= bpow radix2 24) as R.
    { destruct B as [B1 B2]. assert (bpow radix2 (-30) <= bpow radix2 (-20) / 2) by (apply Rle_trans with (bpow radix2 (-21)); [apply bpow_le; lia | right; change (-20)%Z with (-21 + 1)%Z; rewrite bpow_plus; change (bpow radix2 1) with 2; lra]).
      assert (bpow radix2 20 * 2 <= bpow radix2 24) by (change 2 with (bpow radix2 1); rewrite <- bpow_plus; apply bpow_le; lia). lra. }
    destruct N as (F & _ & _ & K0 & _). destruct (lg_any lg HG daz libm x HL F R) as (r & E & Fr & A). unfold FloatCountScores.lgam, lgamma32. rewrite E. cbn [or_nan].
    assert (0 <= k * X) as KX by (apply Rmult_le_pos; lra).
    pose proof (Rabs_pos (lg X)). split; [| repeat split; try lra]. split; [exact Fr |].
    replace (b2r r - lg X) with ((b2r r - lg (b2r x)) + (lg (b2r x) - lg X)) by ring. eapply Rle_trans; [apply Rabs_triang |].
    assert (Rabs (lg (b2r x)) <= Rabs (lg X) + Rabs (lg (b2r x) - lg X)) by (pose proof (Rabs_triang (lg X) (lg (b2r x) - lg X)) as T; replace (lg X + (lg (b2r x) - lg X)) with (lg (b2r x)) in T by ring; exact T).
    lra.
  Qed.

  Definition derr (k T W : R) : R := 52 / 10000000 * T + 7 / 100000000 * (k * T) + 23 / 1000000 * W + / 100000000000 * (k * W) + 7 / 10000 * k.
  Lemma derr_step k T W t w : 0 <= k <= 1024 -> 0 <= T -> 0 <= W -> 0 <= t -> 0 <= w ->
    let e1 := 5 / 1000000 * t + 22 / 1000000 * w + 62 / 100000 + (t + (5 / 1000000 * t + 22 / 1000000 * w + 62 / 100000)) / 16777216 + / 1000000000000 in
    derr k T W + e1 + (T + t + derr k T W + e1) / 16777216 + / 1000000000000 <= derr (k + 1) (T + t) (W + w).
  Proof.
    intros Hk HT HW Ht Hw e1. unfold derr, e1.
    assert (0 <= k * T <= 1024 * T) as T1 by (split; [apply Rmult_le_pos | apply Rmult_le_compat_r]; lra). assert (0 <= k * W <= 1024 * W) as T2 by (split; [apply Rmult_le_pos | apply Rmult_le_compat_r]; lra).
    assert (0 <= k * t) as T3 by (apply Rmult_le_pos; lra). assert (0 <= k * w) as T4 by (apply Rmult_le_pos; lra).
    replace ((k + 1) * (T + t)) with (k * T + k * t + T + t) by ring. replace ((k + 1) * (W + w)) with (k * W + k * w + W + w) by ring.
    generalize dependent (k * T). generalize dependent (k * W). generalize dependent (k * t). generalize dependent (k * w). intros. lra.
  Qed.
  Lemma derr_mag k T W : 0 <= k <= 1024 -> 0 <= T <= 40000000 -> 0 <= W <= 3000000 -> 0 <= derr k T W <= 10000.
  Proof.
    intros Hk HT HW. unfold derr.
    assert (0 <= k * T <= 1024 * T) as T1 by (split; [apply Rmult_le_pos | apply Rmult_le_compat_r]; lra). assert (0 <= k * W <= 1024 * W) as T2 by (split; [apply Rmult_le_pos | apply Rmult_le_compat_r]; lra).
    generalize dependent (k * T). generalize dependent (k * W). intros. lra.
  Qed.

  Definition fA (a : R) (_ : Z) : R := a.
  Definition fN (_ : R) (c : Z) : R := IZR c.
  Definition fV (a : R) (c : Z) : R := lg (a + IZR c) - lg a.
  Definition fT (a : R) (c : Z) : R := Rabs (lg (a + IZR c)) + Rabs (lg a).

  Lemma pair_nonneg f : forall al cs, (forall a c, List.In a al -> List.In c cs -> 0 <= f a c) -> 0 <= pair_sum f al cs.
  Proof.
    induction al as [| a al IH]; intros [| c cs] H; cbn [pair_sum]; try lra.
    pose proof (H a c (or_introl eq_refl) (or_introl eq_refl)). assert (0 <= pair_sum f al cs) by (apply IH; intros x y Hx Hy; apply H; now right). lra.
  Qed.
  Lemma pair_prefix f : forall al cs i, (forall a c, List.In a al -> List.In c cs -> 0 <= f a c) -> pair_sum f (firstn i al) (firstn i cs) <= pair_sum f al cs.
  Proof.
    induction al as [| a al IH]; intros [| c cs] [| i] H; cbn [pair_sum firstn]; try lra.
    - apply (pair_nonneg f (a :: al) (c :: cs)). exact H.
    - assert (pair_sum f (firstn i al) (firstn i cs) <= pair_sum f al cs) by (apply IH; intros x y Hx Hy; apply H; now right). lra.
  Qed.

  Section Group.
    Variables (sh : dd_shared binary32) (g : dd_group).
    Let al := map b2r (dd_alphas sh).
    Let cs := dd_counts g.
    Let n := length cs.
    Let A := pair_sum fA al cs.
    Let N := pair_sum fN al cs.
    Hypotheses (Hm : List.Forall moderate (dd_alphas sh)) (Hlen : length (dd_alphas sh) = n) (Hn : (1 <= n)%nat) (Hn2 : (Z.of_nat n <= 1024)%Z).
    Hypotheses (Hc : List.Forall (fun c => 0 <= c)%Z cs) (Hs : IZR (dd_count_sum g) = N) (HU : A + N <= bpow radix2 20).

    Lemma al_pos a : List.In a al -> 0 <= a.
    Proof using Hm.
      unfold al. intros I. apply in_map_iff in I. destruct I as (x & <- & I). apply (proj1 (List.Forall_forall _ _) Hm) in I. destruct I as [_ I]. fold (b2r x) in I. pose proof (bpow_gt_0 radix2 (-20)). lra.
    Qed.
    Lemma cs_pos c : List.In c cs -> 0 <= IZR c.
    Proof using Hc. intros I. apply (IZR_le 0). exact (proj1 (List.Forall_forall _ _) Hc c I). Qed.

    Definition dinv (i : nat) (p : binary32 * binary32) : Prop :=
      let Ai := pair_sum fA (firstn i al) (firstn i cs) in let Ni := pair_sum fN (firstn i al) (firstn i cs) in
      let Ti := pair_sum fT (firstn i al) (firstn i cs) in let Vi := pair_sum fV (firstn i al) (firstn i cs) in
      match i with O => fst p = float_of_int 0 | _ => near (INR i) (fst p) Ai /\ bpow radix2 (-20) <= Ai end /\
      est (derr (INR i) Ti (2 * Ai + Ni)) Ti (snd p) Vi /\ Ti <= 14 * (2 * Ai + Ni) + 90 * INR i.

    Lemma dinv_step i p a c : (i < n)%nat -> dinv i p -> nth_error (dd_alphas sh) i = Some a -> nth_error cs i = Some c ->
      dinv (S i) (b32_plus mode_NE (fst p) a, b32_plus mode_NE (snd p) (b32_minus mode_NE (lgam (b32_plus mode_NE a (float_of_int c))) (lgam a))).
    Proof using HG HL Hm Hlen Hn Hn2 Hc HU.
      intros Hi I Ea Ec. unfold dinv in *. cbn [fst snd].
      assert (nth_error al i = Some (b2r a)) as Ea' by (unfold al; now apply map_nth_error).
      assert (length al = n) as La by (unfold al; now rewrite map_length).
      assert (length (firstn i al) = length (firstn i cs)) as Li by (rewrite !firstn_length, La; reflexivity).
      pose proof (pair_prefix fA al cs (S i) (fun a c Ia _ => al_pos a Ia)) as UA. pose proof (pair_prefix fN al cs (S i) (fun a c _ Ic => cs_pos c Ic)) as UN. fold A in UA. fold N in UN.
      rewrite (firstn_snoc al i _ Ea'), (firstn_snoc cs i _ Ec), !pair_snoc in UA, UN by exact Li.
      rewrite (firstn_snoc al i _ Ea'), (firstn_snoc cs i _ Ec), !pair_snoc by exact Li.
      set (Ai := pair_sum fA (firstn i al) (firstn i cs)) in *. set (Ni := pair_sum fN (firstn i al) (firstn i cs)) in *.
      set (Ti := pair_sum fT (firstn i al) (firstn i cs)) in *. set (Vi := pair_sum fV (firstn i al) (firstn i cs)) in *.
      destruct I as (IA & IV & IT). unfold fA at 1 in UA. unfold fN at 1 in UN. unfold fA at 1 2 3. 
      assert (moderate a) as Ma by (apply (proj1 (List.Forall_forall _ _) Hm); eapply nth_error_In; exact Ea).
      assert (0 <= c)%Z as Pc by (apply (proj1 (List.Forall_forall _ _) Hc); eapply nth_error_In; exact Ec).
      assert (0 <= IZR c) as Rc by (apply (IZR_le 0); lia).
      assert (0 <= Ai) as PA by (unfold Ai; apply pair_nonneg; intros x y Ix _; apply al_pos; apply (in_firstn x i al); exact Ix).
      assert (0 <= Ni) as PN by (unfold Ni; apply pair_nonneg; intros x y _ Iy; apply cs_pos; apply (in_firstn y i cs); exact Iy).
      assert (0 <= Ti) as PT by (unfold Ti; apply pair_nonneg; intros x y _ _; unfold fT; pose proof (Rabs_pos (lg (x + IZR y))); pose proof (Rabs_pos (lg x)); lra).
      destruct (self_near _ Ma) as [Na Ba]. pose proof (btw_pos _ _ _ Ba) as Pa. pose proof (proj1 Ba) as La0.
      destruct (post_near a c Ma Pc ltac:(lra)) as (Nc & Bc & _).
      destruct (lg_est lg daz libm HG HL _ _ _ Na ltac:(lra) Ba) as (E1 & _ & R1). destruct (lg_est lg daz libm HG HL _ _ _ Nc ltac:(lra) Bc) as (E2 & _ & R2).
      pose proof (lg_lin _ Ba) as M1. pose proof (lg_lin _ Bc) as M2. change (bpow radix2 20) with 1048576 in *.
      assert (0 <= INR i <= 1024) as Ri by (split; [apply pos_INR | rewrite INR_IZR_INZ; apply IZR_le; lia]).
      assert (Ti <= 40000000) as UT by lra. pose proof (derr_mag (INR i) Ti (2 * Ai + Ni) Ri ltac:(lra) ltac:(lra)) as DM.
      pose proof (Rabs_pos (lg (b2r a))). pose proof (Rabs_pos (lg (b2r a + IZR c))).
      split; [| split].
      - rewrite S_INR. destruct i as [| i].
        + unfold Ai. cbn [firstn pair_sum]. cbn [INR]. rewrite !Rplus_0_l. split; [| unfold fA; exact La0]. rewrite IA. unfold fA.
          destruct (int_ok 0 ltac:(lia)) as [V0 F0]. pose proof Na as (Fa & _). 
          destruct (plus_comm32 (float_of_int 0) a F0 Fa) as [F2 E3].
          { rewrite V0, Rplus_0_l. destruct (usual_range _ _ ltac:(apply (btw_usual _ _ _ Ba); lia) (near_double _ _ _ Na)) as [_ R]. exact R. }
          apply near_weaken with 0; [| lra]. refine (near_ext 0 (b32_plus mode_NE a (float_of_int 0)) _ _ _ F2 E3).
          apply near_add_same; try assumption. apply (btw_usual _ _ _ Ba); lia.
        + destruct IA as [IA IL]. split; [| unfold fA; lra]. apply near_add; [exact IA | apply near_weaken with 0; [exact Na | lra] | lra |].
          apply (btw_usual (-20) 20); try lia. unfold fA. split; [| change (bpow radix2 20) with 1048576]; lra.
      - pose proof (est_minus _ _ _ _ _ _ _ _ E2 E1 ltac:(lra)) as S1. rewrite S_INR.
        assert (fT (b2r a) c = Rabs (lg (b2r a + IZR c)) + Rabs (lg (b2r a))) as ET by reflexivity.
        pose proof (derr_step (INR i) Ti (2 * Ai + Ni) (fT (b2r a) c) (2 * b2r a + IZR c) Ri PT ltac:(lra) ltac:(lra) ltac:(lra)) as DS. cbv zeta in DS.
        pose proof (est_plus _ _ _ _ _ _ _ _ IV S1 ltac:(lra)) as S2. unfold fV at 1. eapply est_weaken; [exact S2 | | rewrite ET; lra].
        unfold fA, fN. replace (2 * (Ai + b2r a) + (Ni + IZR c)) with (2 * Ai + Ni + (2 * b2r a + IZR c)) by ring. eapply Rle_trans; [| exact DS]. rewrite ET. lra.
      - rewrite S_INR. unfold fT, fA, fN. lra.
    Qed.

    Lemma dd_data : exists s, dd_score_data (N:=NC) sh g = Ok s /\ fin s = true /\
      Rabs (b2r s - dirichlet_data lg al cs) <= (6 / 1000000 + / 10000000 * INR n) * dirichlet_size lg al cs + (/ 10000 + 8 / 1000000 * INR n) * (A + N) + / 1000 * (INR n + 1).
    Proof using HG HL Hm Hlen Hn Hn2 Hc HU Hs.
      unfold dd_score_data. fold cs. fold n.
      match goal with |- exists s, obind (vfor 0 n ?b ?s0) _ = _ /\ _ => destruct (vfor_inv dinv b n 0 s0) as (p & Run & I) end.
      - unfold dinv. change (firstn 0 al) with (@nil R). change (firstn 0 cs) with (@nil Z). cbn [pair_sum fst snd INR nof NC NumC NumB]. split; [reflexivity |]. split; [| lra].
        split; [destruct (app_int 0 ltac:(lia)) as [F Q]; split; [exact F |]; unfold derr; lra |]. rewrite Rabs_R0. unfold derr. lra.
      - intros i p Hi I. destruct (nth_error (dd_alphas sh) i) as [a |] eqn:Ea; [| apply nth_error_None in Ea; lia]. destruct (nth_error cs i) as [c |] eqn:Ec; [| apply nth_error_None in Ec; unfold n in *; lia].
        unfold vget. rewrite Ea, Ec. cbn [obind]. eexists. split; [reflexivity |]. apply (dinv_step i p a c ltac:(lia) I Ea Ec).
      - rewrite Run. clear Run. cbn [obind]. eexists. split; [reflexivity |]. cbn [Nat.add] in I. unfold dinv in I.
        assert (length al = n) as La by (unfold al; now rewrite map_length). assert (firstn n al = al) as Fa by (rewrite <- La; apply firstn_all). assert (firstn n cs = cs) as Fc by (apply firstn_all).
        rewrite Fa, Fc in I. fold A N in I. destruct I as (IA & IV & IT). destruct n as [| n']; [lia |]. destruct IA as [IA IL].
        set (k := INR (S n')) in *. assert (1 <= k <= 1024) as Rk by (unfold k; rewrite INR_IZR_INZ; split; [apply (IZR_le 1) | apply IZR_le]; lia).
        assert (0 <= N) as PN by (unfold N; apply pair_nonneg; intros x y _ Iy; now apply cs_pos).
        assert (0 <= dd_count_sum g)%Z as Zs by (apply le_IZR; rewrite Hs; exact PN).
        assert (dd_count_sum g <= 1048576)%Z as Zu. { apply le_IZR. rewrite Hs. change (bpow radix2 20) with 1048576 in HU. pose proof (bpow_gt_0 radix2 (-20)). lra. }
        pose proof (bpow_gt_0 radix2 (-20)) as P20. assert (btw (-20) 20 A) as BA by (split; lra). assert (btw (-20) 20 (A + N)) as BN by (split; lra).
        assert (near (k + 1) (b32_plus mode_NE (fst p) (float_of_int (dd_count_sum g))) (A + N)) as NN.
        { rewrite <- Hs. apply near_count; try assumption; try lra; try lia; [apply (btw_usual _ _ _ BA); lia |]. rewrite Hs. apply (btw_usual _ _ _ BN); lia. }
        destruct (lg_est_far _ _ _ IA ltac:(lra) BA) as (E1 & M1 & R1). destruct (lg_est_far _ _ _ NN ltac:(lra) BN) as (E2 & M2 & R2).
        cbn [nof nlgamma nadd nsub NumC NumB FloatCountModels.NC]. fold (lgam (fst p)). fold (lgam (b32_plus mode_NE (fst p) (float_of_int (dd_count_sum g)))).
        set (T := pair_sum fT al cs) in *. assert (0 <= T) as PT by (unfold T; apply pair_nonneg; intros x y _ _; unfold fT; pose proof (Rabs_pos (lg (x + IZR y))); pose proof (Rabs_pos (lg x)); lra).
        change (bpow radix2 20) with 1048576 in HU.
        pose proof (derr_mag k T (2 * A + N) ltac:(lra) ltac:(lra) ltac:(lra)) as DM. pose proof (Rabs_pos (lg A)). pose proof (Rabs_pos (lg (A + N))).
        assert (0 <= k * A <= 1024 * A) as T1 by (split; [apply Rmult_le_pos | apply Rmult_le_compat_r]; lra). assert (0 <= k * N <= 1024 * N) as T2 by (split; [apply Rmult_le_pos | apply Rmult_le_compat_r]; lra).
        replace ((k + 1) * (A + N)) with (k * A + k * N + A + N) in E2 by ring.
        pose proof (est_minus _ _ _ _ _ _ _ _ E1 E2 ltac:(lra)) as S1. pose proof (est_plus _ _ _ _ _ _ _ _ IV S1 ltac:(lra)) as S2.
        destruct S2 as ([F2 S2] & _). split; [exact F2 |]. unfold dirichlet_data, dirichlet_size. cbv zeta.
        change (pair_sum (fun (a : R) (_ : Z) => a) al cs) with A. change (pair_sum (fun (_ : R) (c : Z) => IZR c) al cs) with N.
        change (pair_sum (fun (a : R) (c : Z) => lg (a + IZR c) - lg a) al cs) with (pair_sum fV al cs). change (pair_sum (fun (a : R) (c : Z) => Rabs (lg (a + IZR c)) + Rabs (lg a)) al cs) with T.
        match type of S2 with Rabs (_ - ?u) <= _ => match goal with |- Rabs (_ - ?v) <= _ => replace v with u by ring end end. eapply Rle_trans; [exact S2 |].
        unfold derr in *. assert (0 <= k * T) by (apply Rmult_le_pos; lra).
        assert (0 <= k * Rabs (lg A)) by (apply Rmult_le_pos; lra). assert (0 <= k * Rabs (lg (A + N))) by (apply Rmult_le_pos; lra).
        assert (k * T <= 1024 * T) by (apply Rmult_le_compat_r; lra).
        replace ((6 / 1000000 + / 10000000 * k) * (Rabs (lg A) + Rabs (lg (A + N)) + T)) with (6 / 1000000 * (Rabs (lg A) + Rabs (lg (A + N)) + T) + / 10000000 * (k * Rabs (lg A) + k * Rabs (lg (A + N)) + k * T)) by ring.
        replace ((/ 10000 + 8 / 1000000 * k) * (A + N)) with (/ 10000 * (A + N) + 8 / 1000000 * (k * A + k * N)) by ring.
        replace (k * (2 * A + N)) with (2 * (k * A) + k * N) by ring.
        generalize dependent (k * A). generalize dependent (k * N). generalize dependent (k * T). generalize dependent (k * Rabs (lg A)). generalize dependent (k * Rabs (lg (A + N))). intros. lra.
    Qed.
  End Group.
End DD.
