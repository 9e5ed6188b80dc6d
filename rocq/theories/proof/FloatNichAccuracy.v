(** Accuracy of the streaming mean and variance of NormalInverseChiSq in single precision. *)
From Coq Require Import Reals Lra Lia Psatz List.
From Flocq Require Import Core BinarySingleNaN Binary Bits.
From Verif.model Require Import Base Num FastExp FloatNum Component HistoryRun NICH.
From Verif.spec Require Import FlavorSpec GaussSpec.
From Verif.proof Require Import BaseProof NICHProof FastExpProof FlavorProof FloatScoresProof FloatNichProof.
Import ListNotations.
Local Open Scope R_scope.

(** ** Error propagation in reals *)
Section Err.
  Variables (M eta : R).
  Hypothesis HM : 0 < M.
  Hypothesis He : 0 < eta.
  Hypothesis He1 : eta <= u24 * M / 1000000000.
  Hypothesis He2 : eta <= u24 * (M * M) / 100.
  Let W := u24 * M.

  Lemma u_val : u24 = / 16777216.
  Proof. reflexivity. Qed.

  Lemma mean_err k m v S D q m' A : 1 <= k <= 2000000 -> Rabs m <= M -> Rabs v <= M ->
    Rabs (D - (v - m)) <= u24 * Rabs (v - m) + eta -> Rabs (q - D / k) <= u24 * Rabs (D / k) + eta ->
    Rabs (m' - (m + q)) <= u24 * Rabs (m + q) + eta -> Rabs m' <= M ->
    Rabs ((k - 1) * m - S) <= A -> Rabs (k * m' - (S + v)) <= A + (k + 5) * W.
  Proof using All.
    intros Hk Hm Hv HD Hq Hm' Hmq HA.
    assert (Hu : u24 = / 16777216) by reflexivity.
    assert (HW : W = / 16777216 * M) by reflexivity. rewrite Hu in *.
    assert (Rabs (v - m) <= 2 * M) as V1 by (apply Rabs_le; apply Rabs_le_inv in Hm, Hv; lra).
    assert (Rabs (D - (v - m)) <= 2 * W + eta) as D1 by lra.
    assert (Rabs D <= 5 / 2 * M) as D2 by (apply Rabs_le; apply Rabs_le_inv in D1, V1; lra).
    assert (Rabs (k * (q - D / k)) <= 5 / 2 * W + k * eta) as Q1.
    { rewrite Rabs_mult, (Rabs_pos_eq k) by lra. apply Rle_trans with (k * (/ 16777216 * Rabs (D / k) + eta)).
      - apply Rmult_le_compat_l; [lra | exact Hq].
      - assert (k * Rabs (D / k) = Rabs D) as E.
        { unfold Rdiv. rewrite Rabs_mult, Rabs_inv, (Rabs_pos_eq k) by lra. field. lra. }
        rewrite Rmult_plus_distr_l. replace (k * (/ 16777216 * Rabs (D / k))) with (/ 16777216 * (k * Rabs (D / k))) by ring.
        rewrite E. lra. }
    assert (Rabs (m + q) <= M + M / 8000000) as Hs.
    { assert (Rabs (m + q) <= Rabs m' + Rabs (m' - (m + q))) as X.
      { replace (m + q) with (m' + - (m' - (m + q))) at 1 by ring. eapply Rle_trans; [apply Rabs_triang |]. rewrite Rabs_Ropp. lra. }
      lra. }
    assert (k * W / 8000000 <= W / 4) as K2 by (assert (k * W <= 2000000 * W) by (apply Rmult_le_compat_r; lra); lra).
    assert (Rabs (k * (m' - (m + q))) <= k * (W + W / 8000000) + k * eta) as M1.
    { rewrite Rabs_mult, (Rabs_pos_eq k) by lra. rewrite <- Rmult_plus_distr_l. apply Rmult_le_compat_l; lra. }
    assert (2 * k * eta <= W / 100) as K1.
    { apply Rle_trans with (4000000 * eta); [apply Rmult_le_compat_r; lra | lra]. }
    replace (k * m' - (S + v)) with (k * (m' - (m + q)) + k * (q - D / k) + (D - (v - m)) + ((k - 1) * m - S)) by (field; lra).
    apply Rabs_le. apply Rabs_le_inv in Q1, M1, D1, HA. lra.
  Qed.

  Lemma var_err k m m' v X Y D e p t t' T B : 1 <= k <= 1048576 ->
    Rabs (v - m) <= 2 * M -> Rabs (v - m') <= 2 * M -> Rabs Y <= 2 * M ->
    Rabs (v - m - X) <= (k + 10) / 2 * W -> Rabs (v - m' - Y) <= (k + 11) / 2 * W ->
    Rabs (D - (v - m)) <= u24 * Rabs (v - m) + eta -> Rabs (e - (v - m')) <= u24 * Rabs (v - m') + eta ->
    Rabs (p - D * e) <= u24 * Rabs (D * e) + eta -> Rabs (t' - (t + p)) <= u24 * Rabs (t + p) + eta ->
    0 <= t <= (k - 1) * (5 * (M * M)) -> Rabs (t - T) <= B ->
    t' <= k * (5 * (M * M)) /\ Rabs (t' - (T + X * Y)) <= B + (8 * k + 36) * (M * W).
  Proof using All.
    intros Hk Hvm Hvm' HY HX HY' HD He' Hp Ht' Ht HT.
    assert (HW : W = / 16777216 * M) by reflexivity. assert (Hu : u24 = / 16777216) by reflexivity. rewrite Hu in *.
    assert (0 < W) as W0 by lra.
    assert (Rabs (D - (v - m)) <= (21 / 10) * W) as D1 by lra.
    assert (Rabs (e - (v - m')) <= (21 / 10) * W) as E1 by lra.
    assert (Rabs D <= 2001 / 1000 * M) as D2 by (apply Rabs_le; apply Rabs_le_inv in D1, Hvm; lra).
    assert (Rabs e <= 2001 / 1000 * M) as E2 by (apply Rabs_le; apply Rabs_le_inv in E1, Hvm'; lra).
    assert (Rabs (D * e) <= 401 / 100 * (M * M)) as DE.
    { rewrite Rabs_mult. apply Rle_trans with ((2001 / 1000 * M) * (2001 / 1000 * M)).
      - apply Rmult_le_compat; try apply Rabs_pos; assumption.
      - assert (0 < M * M) by (now apply Rmult_lt_0_compat). lra. }
    assert (0 < M * M) as MM by (now apply Rmult_lt_0_compat).
    assert (M * W = / 16777216 * (M * M)) as EMW by (rewrite HW; ring).
    assert (Rabs (p - D * e) <= 5 * (M * W)) as P1 by lra.
    assert (Rabs p <= 402 / 100 * (M * M)) as P2 by (apply Rabs_le; apply Rabs_le_inv in P1, DE; lra).
    assert (Rabs (t + p) <= k * (5 * (M * M))) as TP by (apply Rabs_le; apply Rabs_le_inv in P2; lra).
    split.
    - assert (k * (M * M) <= 1048576 * (M * M)) as KM by (apply Rmult_le_compat_r; lra).
      apply Rabs_le_inv in Ht', P2. lra.
    - assert (Rabs (D * (e - Y)) <= (2001 / 1000 * M) * ((k + 11) / 2 * W + (21 / 10) * W)) as A1.
      { rewrite Rabs_mult. apply Rmult_le_compat; try apply Rabs_pos; [exact D2 |].
        replace (e - Y) with ((e - (v - m')) + (v - m' - Y)) by ring. eapply Rle_trans; [apply Rabs_triang |]. lra. }
      assert (Rabs (Y * (D - X)) <= (2 * M) * ((k + 10) / 2 * W + (21 / 10) * W)) as A2.
      { rewrite Rabs_mult. apply Rmult_le_compat; try apply Rabs_pos; [exact HY |].
        replace (D - X) with ((D - (v - m)) + (v - m - X)) by ring. eapply Rle_trans; [apply Rabs_triang |]. lra. }
      assert (0 < M * W) as MW by (now apply Rmult_lt_0_compat).
      assert (Rabs (D * (e - Y)) <= (2001 / 2000 * k + 153 / 10) * (M * W)) as B1.
      { eapply Rle_trans; [exact A1 |]. apply Rle_trans with ((2001 / 1000) * ((k + 11) / 2 + 21 / 10) * (M * W)); [right; ring |].
        apply Rmult_le_compat_r; lra. }
      assert (Rabs (Y * (D - X)) <= (k + 143 / 10) * (M * W)) as B2.
      { eapply Rle_trans; [exact A2 |]. apply Rle_trans with (2 * ((k + 10) / 2 + 21 / 10) * (M * W)); [right; ring |].
        apply Rmult_le_compat_r; lra. }
      assert (/ 16777216 * Rabs (t + p) <= 5 * k * (M * W)) as B3.
      { apply Rle_trans with (/ 16777216 * (k * (5 * (M * M)))); [apply Rmult_le_compat_l; lra |]. right. rewrite EMW. ring. }
      replace (t' - (T + X * Y)) with ((t' - (t + p)) + (p - D * e) + (D * (e - Y)) + Y * (D - X) + (t - T)) by ring.
      assert (1 * (M * W) <= k * (M * W)) as K1 by (apply Rmult_le_compat_r; lra).
      apply Rabs_le. apply Rabs_le_inv in Ht', P1, B1, B2, HT. lra.
  Qed.
End Err.

Lemma ssd_cons v xs : xs <> [] -> ssd (v :: xs) = ssd xs
  + (v - rsum xs / INR (length xs)) * (v - (rsum xs + v) / (INR (length xs) + 1)).
Proof.
  intros H. rewrite !ssd_alt by (assumption || discriminate). pose proof (len_pos xs H) as P.
  unfold rsq. cbn [map rsum length]. rewrite S_INR. unfold Rsqr. field. lra.
Qed.
Lemma ssd_one v : ssd [v] = 0.
Proof. rewrite ssd_alt by discriminate. unfold rsq. cbn. unfold Rsqr. field. Qed.
Lemma rsum_bound M xs : 0 <= M -> List.Forall (fun x => Rabs x <= M) xs -> Rabs (rsum xs) <= INR (length xs) * M.
Proof.
  intros H0 H. induction H as [|x xs Hx H IH]; [cbn; rewrite Rabs_R0; lra |].
  cbn [rsum length]. rewrite S_INR. eapply Rle_trans; [apply Rabs_triang |]. lra.
Qed.

Lemma big127 x : x <= 2 ^ 120 -> x <= bpow radix2 127.
Proof.
  intros H. eapply Rle_trans; [exact H |]. change (bpow radix2 127) with (IZR (Z.pow_pos 2 127)).
  rewrite (pow_IZR 2 120). apply IZR_le. vm_compute. discriminate.
Qed.
Lemma eta_val : eta32 = / 2 ^ 150.
Proof.
  unfold eta32. change (bpow radix2 (-150)) with (/ IZR (Z.pow_pos 2 150)). f_equal. rewrite (pow_IZR 2 150). f_equal.
Qed.

Lemma abs_grow a b c e d : Rabs (a - b) <= u24 * Rabs b + e -> Rabs b <= c -> c + / 16777216 * c + e <= d -> Rabs a <= d.
Proof.
  intros H H1 H2. replace a with ((a - b) + b) by ring. eapply Rle_trans; [apply Rabs_triang |].
  unfold u24 in H. lra.
Qed.

Section G.
  Variables (tbl : list Z) (lit : Z -> Z -> binary32) (lg lgam lgam_nu : binary32 -> binary32)
    (lfact : Z -> binary32) (sq : binary32 -> binary32) (pw : binary32 -> binary32 -> binary32).
  Hypothesis lit0 : lit 0 1 = float_of_int 0.
  Let NN : Num binary32 := N32 tbl lit lg lgam lgam_nu lfact sq pw.
  #[local] Hint Extern 0 (Num binary32) => exact NN : typeclass_instances.
  Notation grp := (nich_group binary32).
  Variables (M lo hi : R).
  Hypothesis HM : / 2 ^ 50 <= M <= 2 ^ 40.
  Hypothesis Hlo : - M <= lo.
  Hypothesis Hhi : hi <= M.

  Definition acc (xs : list R) (g : grp) : Prop :=
    let n := INR (length xs) in
    ni_count g = Z.of_nat (length xs) /\ fin (ni_mean g) = true /\ fin (ni_ctv g) = true /\
    lo <= b2r (ni_mean g) <= hi /\
    Rabs (n * b2r (ni_mean g) - rsum xs) <= (n * (n + 11) / 2) * (u24 * M) /\
    0 <= b2r (ni_ctv g) <= n * (5 * (M * M)) /\
    Rabs (b2r (ni_ctv g) - ssd xs) <= (n * (4 * n + 40)) * (M * (u24 * M)).

  Lemma M_pos : 0 < M.
  Proof. assert (0 < / 2 ^ 50) by (apply Rinv_0_lt_compat, pow_lt; lra). lra. Qed.
  Lemma eta_1 : eta32 <= u24 * M / 1000000000.
  Proof. rewrite eta_val. unfold u24. destruct HM as [H _]. clear - H. assert (/ 2 ^ 150 <= / 16777216 * (/ 2 ^ 50) / 1000000000); lra. Qed.
  Lemma eta_2 : eta32 <= u24 * (M * M) / 100.
  Proof.
    rewrite eta_val. unfold u24. destruct HM as [H _]. clear - H.
    assert (/ 2 ^ 50 * / 2 ^ 50 <= M * M) by (apply Rmult_le_compat; lra). lra.
  Qed.
  Lemma MM_le : M * M <= 2 ^ 80.
  Proof. pose proof M_pos. destruct HM as [_ H0]. assert (M * M <= 2 ^ 40 * 2 ^ 40) by (apply Rmult_le_compat; lra). lra. Qed.

  Lemma i32_small z : (- 2147483648 <= z <= 2147483647)%Z -> i32 z = Ok z.
  Proof. intros H. unfold i32. replace (_ && _)%bool with true; [reflexivity |]. symmetry. apply andb_true_intro. split; apply Z.leb_le; unfold i32_min, i32_max; lia. Qed.

  Lemma in_M x : lo <= x <= hi -> Rabs x <= M.
  Proof. intros H. apply Rabs_le. lra. Qed.

  Lemma acc_first dl (sh : nich_shared binary32) (v : binary32) : fin v = true -> lo <= b2r v <= hi ->
    exists g, nich_add dl sh (nich_init sh) v = Ok g /\ acc [b2r v] g.
  Proof.
    intros Fv Bv. unfold nich_add, nich_init. cbn [ni_count ni_mean ni_ctv nlit nadd nsub nmul ndiv nof NN N32 NumB].
    rewrite lit0. rewrite i32_small by lia. cbn [obind]. eexists. split; [reflexivity |].
    destruct zero_val as [Z0 FZ]. pose proof M_pos as MP. pose proof (in_M _ Bv) as AV.
    destruct (minus_ok v (float_of_int 0) Fv FZ) as [ED FD].
    { apply big127. rewrite Z0. replace (b2r v - 0) with (b2r v) by ring. lra. }
    rewrite Z0 in ED. replace (b2r v - 0) with (b2r v) in ED by ring. rewrite rnd_same in ED.
    destruct (int_ok (0 + 1) eq_refl) as [E1 F1]. cbn [Z.add] in E1, F1 |- *.
    assert (b2r (b32_minus mode_NE v (float_of_int 0)) / b2r (float_of_int 1) = b2r v) as EQ by (rewrite ED, E1; field).
    destruct (div_ok (b32_minus mode_NE v (float_of_int 0)) (float_of_int 1) FD) as [Eq Fq].
    { rewrite E1. lra. }
    { apply big127. rewrite EQ. lra. }
    rewrite EQ, rnd_same in Eq.
    destruct (plus_ok (float_of_int 0) _ FZ Fq) as [Em Fm].
    { apply big127. rewrite Z0, Eq, Rplus_0_l. lra. }
    rewrite Z0, Eq, Rplus_0_l, rnd_same in Em.
    destruct (minus_ok v _ Fv Fm) as [Ee Fe].
    { apply big127. rewrite Em. replace (b2r v - b2r v) with 0 by ring. rewrite Rabs_R0. lra. }
    rewrite Em in Ee. replace (b2r v - b2r v) with 0 in Ee by ring. rewrite rnd_0 in Ee.
    destruct (mult_ok _ _ FD Fe) as [Ep Fp].
    { apply big127. rewrite Ee, Rmult_0_r, Rabs_R0. lra. }
    rewrite Ee, Rmult_0_r, rnd_0 in Ep.
    destruct (plus_ok (float_of_int 0) _ FZ Fp) as [Et Ft].
    { apply big127. rewrite Ep, Z0, Rplus_0_l, Rabs_R0. lra. }
    rewrite Ep, Z0, Rplus_0_l, rnd_0 in Et.
    unfold acc. cbn [ni_count ni_mean ni_ctv length]. rewrite ssd_one. cbn [rsum INR].
    split; [reflexivity |]. split; [exact Fm |]. split; [exact Ft |]. rewrite Em, Et.
    assert (0 < u24) by (unfold u24; lra).
    assert (0 < u24 * M) by (now apply Rmult_lt_0_compat). assert (0 < M * M) by (now apply Rmult_lt_0_compat).
    assert (0 < M * (u24 * M)) by (now apply Rmult_lt_0_compat).
    split; [exact Bv |]. replace (1 * b2r v - (b2r v + 0)) with 0 by ring. replace (0 - 0) with 0 by ring. rewrite Rabs_R0. lra.
  Qed.

  Lemma acc_step dl (sh : nich_shared binary32) xs g (v : binary32) : xs <> [] -> List.Forall (fun x => lo <= x <= hi) xs -> (Z.of_nat (length xs) < 1048576)%Z ->
    acc xs g -> fin v = true -> lo <= b2r v <= hi ->
    exists g', nich_add dl sh g v = Ok g' /\ acc (b2r v :: xs) g'.
  Proof.
    intros NE HX HL (HC & FM & FT & BM & EM & BT & ET) Fv Bv.
    pose proof M_pos as MP. pose proof (in_M _ Bv) as AV. pose proof (in_M _ BM) as AM.
    unfold nich_add. cbn [nadd nsub nmul ndiv nof NN N32 NumB].
    rewrite HC in *. assert (1 <= Z.of_nat (length xs))%Z as L1 by (destruct xs; [congruence | cbn [length]; lia]).
    rewrite i32_small by lia. cbn [obind]. eexists. split; [reflexivity |].
    set (m := ni_mean g) in *. set (t := ni_ctv g) in *. set (n := INR (length xs)) in *.
    assert (En : IZR (Z.of_nat (length xs)) = n) by (unfold n; symmetry; apply INR_IZR_INZ).
    assert (1 <= n) as N1 by (rewrite <- En; apply IZR_le; lia).
    assert (n + 1 <= 1048576) as N2 by (rewrite <- En, <- plus_IZR; apply IZR_le; lia).
    destruct (int_ok (Z.of_nat (length xs) + 1) ltac:(lia)) as [EK FK].
    rewrite plus_IZR, En in EK. set (c := float_of_int (Z.of_nat (length xs) + 1)) in *.
    pose proof (proj1 eta32_pos) as EP. pose proof eta_1 as E1. pose proof eta_2 as E2. pose proof MM_le as MML.
    assert (Hu : u24 = / 16777216) by reflexivity.
    assert (0 < M * M) as MM by (now apply Rmult_lt_0_compat).
    assert (M <= 2 ^ 40) as M40 by apply HM.
    assert (Rabs (b2r v - b2r m) <= 2 * M) as V1 by (apply Rabs_le; apply Rabs_le_inv in AV, AM; lra).
    destruct (minus_ok v m Fv FM) as [ED FD]; [apply big127; lra |]. set (D := b32_minus mode_NE v m) in *.
    pose proof (rnd_err (b2r v - b2r m)) as RD. rewrite <- ED in RD.
    assert (Rabs (b2r D) <= 3 * M) as D1 by (apply (abs_grow _ _ _ _ _ RD V1); rewrite Hu in *; lra).
    assert (Rabs (b2r D / b2r c) <= 3 * M) as D2.
    { rewrite EK. unfold Rdiv. rewrite Rabs_mult, Rabs_inv, (Rabs_pos_eq (n + 1)) by lra.
      apply Rle_trans with (Rabs (b2r D) * 1); [| lra]. apply Rmult_le_compat_l; [apply Rabs_pos |].
      rewrite <- Rinv_1. apply Rinv_le; lra. }
    destruct (div_ok D c FD) as [Eq Fq]; [rewrite EK; lra | apply big127; lra |]. set (q := b32_div mode_NE D c) in *.
    pose proof (rnd_err (b2r D / b2r c)) as RQ. rewrite <- Eq, EK in RQ. rewrite EK in D2.
    assert (Rabs (b2r q) <= 4 * M) as Q1 by (apply (abs_grow _ _ _ _ _ RQ D2); rewrite Hu in *; lra).
    assert (Rabs (b2r m + b2r q) <= 5 * M) as MQ by (apply Rabs_le; apply Rabs_le_inv in AM, Q1; lra).
    destruct (plus_ok m q FM Fq) as [Em' Fm']; [apply big127; lra |].
    destruct (add_mean m v (Z.of_nat (length xs)) ltac:(lia) ltac:(lia) ltac:(lia) Fm') as (_ & _ & _ & _ & _ & _ & P1 & P2).
    fold c in P1, P2. fold D in P1, P2. fold q in P1, P2. set (m' := b32_plus mode_NE m q) in *.
    pose proof (rnd_err (b2r m + b2r q)) as RM. rewrite <- Em' in RM.
    assert (lo <= b2r m' <= hi) as BM' by (destruct (Rle_or_lt (b2r m) (b2r v)) as [L | L]; [specialize (P1 L) | specialize (P2 (Rlt_le _ _ L))]; lra).
    pose proof (in_M _ BM') as AM'.
    assert (Rabs (b2r v - b2r m') <= 2 * M) as V2 by (apply Rabs_le; apply Rabs_le_inv in AV, AM'; lra).
    destruct (minus_ok v m' Fv Fm') as [Ee Fe]; [apply big127; lra |]. set (e := b32_minus mode_NE v m') in *.
    pose proof (rnd_err (b2r v - b2r m')) as RE. rewrite <- Ee in RE.
    assert (Rabs (b2r e) <= 3 * M) as e1 by (apply (abs_grow _ _ _ _ _ RE V2); rewrite Hu in *; lra).
    assert (Rabs (b2r D * b2r e) <= 9 * (M * M)) as DE.
    { rewrite Rabs_mult. apply Rle_trans with ((3 * M) * (3 * M)); [| right; ring].
      apply Rmult_le_compat; try apply Rabs_pos; assumption. }
    destruct (mult_ok D e FD Fe) as [Ep Fp]; [apply big127; lra |]. set (p := b32_mult mode_NE D e) in *.
    pose proof (rnd_err (b2r D * b2r e)) as RP. rewrite <- Ep in RP.
    assert (Rabs (b2r p) <= 10 * (M * M)) as p1 by (apply (abs_grow _ _ _ _ _ RP DE); rewrite Hu in *; lra).
    assert (n * (M * M) <= 1048576 * (M * M)) as NM by (apply Rmult_le_compat_r; lra).
    destruct (plus_ok t p FT Fp) as [Et' Ft']; [apply big127; apply Rabs_le; apply Rabs_le_inv in p1; lra |].
    set (t' := b32_plus mode_NE t p) in *.
    pose proof (rnd_err (b2r t + b2r p)) as RT. rewrite <- Et' in RT.
    assert (0 <= b2r t') as T0.
    { rewrite Et'. apply rnd_pos. apply Rplus_le_le_0_compat; [lra |]. rewrite Ep. apply rnd_pos.
      destruct (Rle_or_lt (b2r m) (b2r v)) as [L | L].
      - destruct (P1 L) as [A1 A2]. apply Rmult_le_pos; [exact A1 |]. rewrite Ee. apply rnd_pos. lra.
      - destruct (P2 (Rlt_le _ _ L)) as [A1 A2]. assert (b2r e <= 0) by (rewrite Ee; apply rnd_neg; lra). nra. }
    assert (0 < u24 * M) as W0 by (rewrite Hu; lra).
    (* the mean *)
    assert (Rabs ((n + 1) * b2r m' - (rsum xs + b2r v)) <= n * (n + 11) / 2 * (u24 * M) + (n + 1 + 5) * (u24 * M)) as HMn.
    { apply (mean_err M eta32 MP EP E1 E2 (n + 1) (b2r m) (b2r v) (rsum xs) (b2r D) (b2r q) (b2r m')); try assumption; try lra.
      replace (n + 1 - 1) with n by ring. exact EM. }
    assert (Rabs ((n + 1) * b2r m' - (rsum xs + b2r v)) <= (n + 1) * (n + 1 + 11) / 2 * (u24 * M)) as HMn'.
    { eapply Rle_trans; [exact HMn |]. right. field. }
    assert (Rabs (b2r m - rsum xs / n) <= (n + 11) / 2 * (u24 * M)) as HA.
    { replace (b2r m - rsum xs / n) with (/ n * (n * b2r m - rsum xs)) by (field; lra).
      rewrite Rabs_mult, Rabs_inv, (Rabs_pos_eq n) by lra. apply Rmult_le_reg_l with n; [lra |].
      rewrite <- Rmult_assoc, Rinv_r, Rmult_1_l by lra. eapply Rle_trans; [exact EM |]. right. field. }
    assert (Rabs (b2r m' - (rsum xs + b2r v) / (n + 1)) <= (n + 1 + 11) / 2 * (u24 * M)) as HB.
    { replace (b2r m' - (rsum xs + b2r v) / (n + 1)) with (/ (n + 1) * ((n + 1) * b2r m' - (rsum xs + b2r v))) by (field; lra).
      rewrite Rabs_mult, Rabs_inv, (Rabs_pos_eq (n + 1)) by lra. apply Rmult_le_reg_l with (n + 1); [lra |].
      rewrite <- Rmult_assoc, Rinv_r, Rmult_1_l by lra. eapply Rle_trans; [exact HMn' |]. right. field. }
    (* the variance *)
    assert (Rabs ((rsum xs + b2r v) / (n + 1)) <= M) as BS.
    { assert (Rabs (rsum (b2r v :: xs)) <= INR (length (b2r v :: xs)) * M) as X.
      { apply rsum_bound; [lra |]. constructor; [exact AV |].
        eapply Forall_impl; [| exact HX]. intros a Ha. now apply in_M. }
      cbn [rsum length] in X. rewrite S_INR in X. fold n in X.
      unfold Rdiv. rewrite Rabs_mult, Rabs_inv, (Rabs_pos_eq (n + 1)) by lra. rewrite (Rplus_comm (rsum xs)).
      apply Rmult_le_reg_l with (n + 1); [lra |]. replace ((n + 1) * (Rabs (b2r v + rsum xs) * / (n + 1))) with (Rabs (b2r v + rsum xs)) by (field; lra). exact X. }
    destruct (var_err M eta32 MP EP E1 E2 (n + 1) (b2r m) (b2r m') (b2r v)
                (b2r v - rsum xs / n) (b2r v - (rsum xs + b2r v) / (n + 1)) (b2r D) (b2r e) (b2r p) (b2r t) (b2r t')
                (ssd xs) (n * (4 * n + 40) * (M * (u24 * M)))) as [V3 V4]; try assumption; try lra.
    { apply Rabs_le. apply Rabs_le_inv in BS, AV. lra. }
    { replace (b2r v - b2r m - (b2r v - rsum xs / n)) with (- (b2r m - rsum xs / n)) by ring. rewrite Rabs_Ropp.
      eapply Rle_trans; [exact HA |]. right. field. }
    { replace (b2r v - b2r m' - (b2r v - (rsum xs + b2r v) / (n + 1))) with (- (b2r m' - (rsum xs + b2r v) / (n + 1))) by ring.
      rewrite Rabs_Ropp. exact HB. }
    unfold acc. cbn [ni_count ni_mean ni_ctv length rsum]. rewrite S_INR. fold n.
    split; [lia |]. split; [exact Fm' |]. split; [exact Ft' |]. split; [exact BM' |].
    split; [rewrite (Rplus_comm (b2r v)); exact HMn' |]. split; [split; [exact T0 | exact V3] |].
    rewrite (ssd_cons _ _ NE). fold n. eapply Rle_trans; [exact V4 |]. right. ring.
  Qed.

  Lemma acc_run dl (sh : nich_shared binary32) : forall (vs : list binary32) xs g, xs <> [] -> List.Forall (fun x => lo <= x <= hi) xs ->
    (Z.of_nat (length xs + length vs) <= 1048576)%Z -> acc xs g ->
    List.Forall (fun v => fin v = true /\ lo <= b2r v <= hi) vs ->
    exists g', hruns (NICH binary32) dl sh g (map HAdd vs) = Ok g' /\ acc (rev (map (fun v : binary32 => b2r v) vs) ++ xs) g'.
  Proof.
    induction vs as [|v vs IH]; intros xs g NE HX HL HA HV; cbn [map hruns rev app]; [now exists g |].
    inversion HV as [|? ? [F B] HV']; subst. cbn [length] in HL.
    destruct (acc_step dl sh xs g v NE HX ltac:(lia) HA F B) as (g1 & E & A1). cbn [hrun1]. cbn [c_add NICH].
    rewrite E. cbn [obind]. destruct (IH (b2r v :: xs) g1) as (g2 & E2 & A2); try assumption.
    - discriminate.
    - now constructor.
    - cbn [length]. lia.
    - exists g2. split; [exact E2 |]. rewrite <- app_assoc. exact A2.
  Qed.
  Lemma acc_all dl (sh : nich_shared binary32) (vs : list binary32) : vs <> [] -> (Z.of_nat (length vs) <= 1048576)%Z ->
    List.Forall (fun v => fin v = true /\ lo <= b2r v <= hi) vs ->
    exists g, hrun (NICH binary32) dl sh (map HAdd vs) = Ok g /\ acc (rev (map (fun v : binary32 => b2r v) vs)) g.
  Proof.
    intros NE HL HV. destruct vs as [|v vs]; [congruence |]. inversion HV as [|? ? [F B] HV']; subst.
    unfold hrun. cbn [map hruns hrun1]. cbn [c_add c_init NICH].
    destruct (acc_first dl sh v F B) as (g & E & A). rewrite E. cbn [obind].
    assert (List.Forall (fun x => lo <= x <= hi) [b2r v]) as HX by (apply Forall_cons; [exact B | apply Forall_nil]).
    destruct (acc_run dl sh vs [b2r v] g) as (g2 & E2 & A2); [discriminate | exact HX | cbn [length] in *; lia | exact A | exact HV' |].
    exists g2. split; [exact E2 | exact A2].
  Qed.
End G.
