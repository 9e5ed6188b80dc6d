(** Discrete sampling from scores in single precision. *)
From Coq Require Import Reals Lra Psatz List.
From Flocq Require Import Core BinarySingleNaN Binary Bits Relative.
From Verif.model Require Import Base Num FastExp FloatNum VectorMath Random.
From Verif.spec Require Import ExpSpec PartitionSpec RandomSpec VectorSpec FloatSpec.
From Verif.proof Require Import BaseProof LnBounds FastExpProof VectorProof RandomProof.
Import ListNotations.
Local Open Scope R_scope.

Lemma ltb_ok x y : fin x = true -> fin y = true -> b32_ltb x y = true <-> b2r x < b2r y.
Proof.
  intros Fx Fy. unfold b32_ltb. rewrite compare_ok by assumption.
  destruct (Rcompare_spec (b2r x) (b2r y)); split; intros; try lra; try discriminate; reflexivity.
Qed.
Lemma leb_ok x y : fin x = true -> fin y = true -> b32_leb x y = true <-> b2r x <= b2r y.
Proof.
  intros Fx Fy. unfold b32_leb. rewrite compare_ok by assumption.
  destruct (Rcompare_spec (b2r x) (b2r y)); split; intros; try lra; try discriminate; reflexivity.
Qed.

Lemma rnd_le x y : x <= y -> rnd x <= rnd y.
Proof. apply round_le; [apply FLT_exp_valid; reflexivity | apply valid_rnd_N]. Qed.
Lemma rnd_same x : rnd (b2r x) = b2r x.
Proof. apply round_generic; [apply valid_rnd_N | apply generic_format_B2R]. Qed.
Lemma rnd_0 : rnd 0 = 0.
Proof. apply round_0. apply valid_rnd_N. Qed.

Lemma zero_val : b2r (float_of_int 0) = 0 /\ fin (float_of_int 0) = true.
Proof. exact (int_ok 0 eq_refl). Qed.

Lemma is_zero x : fin x = true -> b2r x = 0 -> exists s, x = B754_zero 24 128 s.
Proof.
  intros F E. destruct x as [s | s | s pl e | s m e B]; try discriminate F; [now exists s |].
  exfalso. cbn in E. apply eq_0_F2R in E. destruct s; discriminate E.
Qed.

Lemma fast_exp_zero tbl s : faithful_table tbl ->
  exists y, fast_exp tbl (B754_zero 24 128 s) = Ok y /\ fin y = true /\ b2r y = 1.
Proof.
  intros (HL & H0 & _). destruct tbl as [| m tbl]; [discriminate H0 |]. injection H0 as ->.
  destruct (bits_ok 127 0 ltac:(lia) ltac:(lia)) as [F E].
  assert (match fast_exp (0%Z :: tbl) (B754_zero 24 128 s) with Ok y => Some (bits_of_b32 y) | _ => None end = Some 1065353216%Z) as G
    by (destruct s; vm_compute; reflexivity).
  destruct (fast_exp _ _) as [y | |]; try discriminate G. injection G as G.
  exists y. split; [reflexivity |].
  assert (y = b32_of_bits (127 * 8388608 + 0)) as ->.
  { change (127 * 8388608 + 0)%Z with 1065353216%Z. rewrite <- G. symmetry. unfold b32_of_bits, bits_of_b32.
    now apply (binary_float_of_bits_of_binary_float 23 8). }
  split; [exact F |]. rewrite E. cbn. lra.
Qed.

Lemma exp_m87 : exp (-87) <= bpow radix2 (-124).
Proof.
  rewrite bpow_exp. change (IZR radix2) with 2. apply exp_le. pose proof ln2_hi. lra.
Qed.

Lemma near_one z : - (1 / 100000) <= z <= 1 / 100000 -> Rabs (exp z - 1) <= (1001 / 1000) * Rabs z.
Proof.
  intros H. destruct (exp_small z ltac:(lra)) as [H1 H2].
  assert (z * z <= (1 / 100000) * Rabs z) as H3.
  { rewrite <- (Rabs_pos_eq (z * z)) by nra. rewrite Rabs_mult.
    apply Rmult_le_compat_r; [apply Rabs_pos |]. apply Rabs_le. lra. }
  pose proof (Rle_abs z) as H4. pose proof (Rle_abs (- z)) as H5. rewrite Rabs_Ropp in H5.
  apply Rabs_le. lra.
Qed.

(** one score relative to the largest one *)
Lemma item tbl s m : faithful_table tbl -> fin s = true -> fin m = true ->
  Rabs (b2r s) <= 500000000 -> Rabs (b2r m) <= 500000000 -> b2r s <= b2r m ->
  exists y, fast_exp tbl (b32_minus mode_NE s m) = Ok y /\ fin y = true /\ 0 <= b2r y /\
    (b2r s = b2r m -> b2r y = 1) /\
    (-87 <= b2r s - b2r m -> Rabs (b2r y - exp (b2r s - b2r m)) <=
       (2 * Rabs (b2r s - b2r m) + 9) / 8388608 * exp (b2r s - b2r m)) /\
    (b2r s - b2r m < -87 -> b2r y <= bpow radix2 (-124)).
Proof.
  intros HT Fs Fm Hs Hm Hle. pose proof bpow127 as HB. pose proof eta32_pos as He.
  apply Rabs_le_inv in Hs, Hm. set (d := b2r s - b2r m) in *.
  destruct (minus_ok s m Fs Fm) as [E F].
  { fold d. eapply Rle_trans; [| exact HB]. apply Rabs_le. unfold d. lra. }
  fold d in E. pose proof (rnd_err d) as R1.
  assert (b2r (b32_minus mode_NE s m) <= 0) as H0.
  { rewrite E, <- rnd_0. apply rnd_le. unfold d. lra. }
  destruct (Rle_or_lt (-87) d) as [L | L].
  - assert (-87 <= rnd d) as H1.
    { destruct (int_ok (-87) eq_refl) as [E1 _]. rewrite <- E1, <- rnd_same. apply rnd_le. now rewrite E1. }
    destruct (fast_exp_core tbl _ HT F) as (y & Ey & Fy & Hy); [lra |].
    exists y. split; [exact Ey |]. split; [exact Fy |]. rewrite E in *.
    set (x := rnd d) in *. pose proof (exp_pos x) as Px. pose proof (exp_pos d) as Pd.
    assert (Rabs d <= 87) as Ad by (apply Rabs_le; unfold d in *; lra).
    pose proof (Rabs_pos d) as Ad0.
    assert (- (1 / 100000) <= x - d <= 1 / 100000) as Hz.
    { apply Rabs_le_inv. eapply Rle_trans; [exact R1 |]. unfold u24. lra. }
    pose proof (near_one _ Hz) as N1.
    assert (exp x = exp d * exp (x - d)) as Exd by (rewrite <- exp_plus; f_equal; ring).
    assert (Rabs x <= Rabs d + 1 / 100000) as Ax.
    { replace x with (d + (x - d)) by ring. eapply Rle_trans; [apply Rabs_triang |].
      apply Rplus_le_compat_l. apply Rabs_le. lra. }
    pose proof (Rabs_pos x) as Ax0.
    assert (Rabs (x - d) <= (Rabs d + 1 / 100) / 16777216) as Az.
    { eapply Rle_trans; [exact R1 |]. unfold u24. pose proof He. lra. }
    assert (Rabs (b2r y - exp d) <= (2 * Rabs d + 9) / 8388608 * exp d) as Hfin.
    { assert (exp (x - d) <= 1 + 1 / 10000) as U.
      { apply Rabs_le_inv in N1. assert (Rabs (x - d) <= 1 / 100000) by (apply Rabs_le; lra). lra. }
      assert (exp x <= (1 + 1 / 10000) * exp d) as U1 by (rewrite Exd, Rmult_comm; apply Rmult_le_compat_r; lra).
      assert (Rabs (exp x - exp d) <= (1001 / 1000) * ((Rabs d + 1 / 100) / 16777216) * exp d) as U2.
      { rewrite Exd. replace (exp d * exp (x - d) - exp d) with ((exp (x - d) - 1) * exp d) by ring.
        rewrite Rabs_mult, (Rabs_pos_eq (exp d)) by lra. apply Rmult_le_compat_r; [lra |].
        eapply Rle_trans; [exact N1 |]. apply Rmult_le_compat_l; lra. }
      replace (b2r y - exp d) with ((b2r y - exp x) + (exp x - exp d)) by ring.
      eapply Rle_trans; [apply Rabs_triang |].
      apply Rle_trans with ((Rabs d + 1 / 100000 + 8) / 8388608 * ((1 + 1 / 10000) * exp d) +
        (1001 / 1000) * ((Rabs d + 1 / 100) / 16777216) * exp d).
      - apply Rplus_le_compat; [| exact U2]. eapply Rle_trans; [exact Hy |].
        apply Rmult_le_compat; lra.
      - rewrite <- Rmult_assoc, <- Rmult_plus_distr_r. apply Rmult_le_compat_r; lra. }
    repeat split.
    + apply Rabs_le_inv in Hfin.
      assert ((2 * Rabs d + 9) / 8388608 * exp d <= 1 * exp d) as G by (apply Rmult_le_compat_r; lra). lra.
    + intros Heq. assert (d = 0) as D0 by (unfold d; lra).
      destruct (is_zero (b32_minus mode_NE s m) F) as [sg Z].
      { rewrite E. unfold x. now rewrite D0, rnd_0. }
      rewrite Z in Ey. destruct (fast_exp_zero tbl sg HT) as (y' & Ey' & _ & V). congruence.
    + intros _. exact Hfin.
    + intros; lra.
  - assert (rnd d <= -87) as H1.
    { destruct (int_ok (-87) eq_refl) as [E1 _]. rewrite <- E1, <- rnd_same. apply rnd_le. rewrite E1. lra. }
    assert (-1028653000 <= rnd d) as H2.
    { assert (Rabs d <= 1000000000) as Ad by (apply Rabs_le; unfold d; lra).
      assert (Rabs (rnd d - d) <= 100) as G by (unfold u24 in R1; lra). apply Rabs_le_inv in G, Ad. lra. }
    destruct (fast_exp_low tbl _ HT F) as (y & Ey & Fy & Hy); [lra |].
    exists y. split; [exact Ey |]. split; [exact Fy |]. split; [apply Hy |].
    split; [unfold d in L; lra |]. split; [lra |]. intros _. apply Hy.
Qed.

(** the largest score *)
Lemma fold_max_b32 (l : list binary32) : forall x, fin x = true -> Forall (fun s => fin s = true) l ->
  let m := fold_left (fun m y => if b32_ltb m y then y else m) l x in
  In m (x :: l) /\ fin m = true /\ forall y, In y (x :: l) -> b2r y <= b2r m.
Proof.
  induction l as [| a l IH]; intros x Fx Fl; cbn [fold_left].
  - split; [now left |]. split; [exact Fx |]. intros y [<- | []]. lra.
  - inversion Fl as [| ? ? Fa Fl']; subst.
    destruct (b32_ltb x a) eqn:C.
    + apply ltb_ok in C; [| assumption | assumption].
      destruct (IH a Fa Fl') as (H1 & H2 & H3). split; [now right |]. split; [exact H2 |].
      intros y [<- | Hy]; [| now apply H3]. specialize (H3 a (or_introl eq_refl)). lra.
    + assert (b2r a <= b2r x) as G.
      { destruct (Rle_or_lt (b2r a) (b2r x)) as [G | G]; [exact G |].
        apply (ltb_ok x a Fx Fa) in G. congruence. }
      destruct (IH x Fx Fl') as (H1 & H2 & H3). split; [destruct H1 as [H1 | H1]; [now left | now right; right] |].
      split; [exact H2 |]. intros y [<- | [<- | Hy]]; [apply H3; now left | | apply H3; now right].
      specialize (H3 x (or_introl eq_refl)). lra.
Qed.

(** sums *)
Lemma sum_b32 l : forall t, fin t = true -> 0 <= b2r t ->
  Forall (fun y => fin y = true /\ 0 <= b2r y) l ->
  b2r t + rsum (map b2r l) <= 100000000 -> (Z.of_nat (length l) <= 4194304)%Z ->
  fin (fold_left (b32_plus mode_NE) l t) = true /\ 0 <= b2r (fold_left (b32_plus mode_NE) l t) /\
  Rabs (b2r (fold_left (b32_plus mode_NE) l t) - (b2r t + rsum (map b2r l))) <=
    2 * INR (length l) * (u24 * (b2r t + rsum (map b2r l)) + eta32).
Proof.
  intros t Ft Ht Hl HS Hn.
  enough (forall k t0 S0, fin t0 = true -> 0 <= b2r t0 -> 0 <= S0 -> S0 + rsum (map b2r l) <= 100000000 -> (Z.of_nat (k + length l) <= 4194304)%Z ->
    Rabs (b2r t0 - S0) <= 2 * INR k * (u24 * S0 + eta32) ->
    fin (fold_left (b32_plus mode_NE) l t0) = true /\ 0 <= b2r (fold_left (b32_plus mode_NE) l t0) /\
    Rabs (b2r (fold_left (b32_plus mode_NE) l t0) - (S0 + rsum (map b2r l))) <=
      2 * INR (k + length l) * (u24 * (S0 + rsum (map b2r l)) + eta32)) as G.
  { apply (G 0%nat t (b2r t)); try assumption. cbn [INR]. unfold Rminus. rewrite Rplus_opp_r, Rabs_R0. lra. }
  clear t Ft Ht HS Hn. pose proof eta32_pos as He. pose proof bpow127 as HB.
  induction Hl as [| y l [Fy Hy] Hl IH]; intros k t S0 Ft Ht H0 HS Hn HE; cbn [fold_left map rsum length] in *.
  - rewrite Rplus_0_r, Nat.add_0_r. tauto.
  - assert (0 <= rsum (map b2r l)) as Hr.
    { clear - Hl. induction Hl as [| z l [_ Hz] Hl IH]; cbn [map rsum]; lra. }
    assert (INR k <= 4194304) as Hk.
    { rewrite INR_IZR_INZ. apply IZR_le. lia. }
    pose proof (pos_INR k) as Hk0.
    assert (Rabs (b2r t - S0) <= 1000 + S0) as Q.
    { eapply Rle_trans; [exact HE |]. unfold u24. apply Rle_trans with (2 * 4194304 * (/ 16777216 * S0 + eta32)); [| lra].
      apply Rmult_le_compat_r; lra. }
    pose proof (Rabs_le_inv _ _ Q) as Q'.
    destruct (plus_ok t y Ft Fy) as [E F].
    { eapply Rle_trans; [| exact HB]. apply Rabs_le. lra. }
    pose proof (rnd_err (b2r t + b2r y)) as R1. rewrite <- E in R1.
    destruct (IH (S k) (b32_plus mode_NE t y) (S0 + b2r y)) as (G1 & G2 & G3); try lra; try lia; try exact F.
    + rewrite E, <- rnd_0. apply rnd_le. lra.
    + rewrite S_INR. replace (b2r (b32_plus mode_NE t y) - (S0 + b2r y)) with
        ((b2r (b32_plus mode_NE t y) - (b2r t + b2r y)) + (b2r t - S0)) by ring.
      eapply Rle_trans; [apply Rabs_triang |].
      assert (Rabs (b2r t + b2r y) <= S0 + b2r y + 2 * INR k * (u24 * S0 + eta32)) as A.
      { rewrite Rabs_pos_eq by lra. apply Rabs_le_inv in HE. lra. }
      assert (u24 * Rabs (b2r t + b2r y) <= u24 * (S0 + b2r y + 2 * INR k * (u24 * S0 + eta32))) as A1
        by (apply Rmult_le_compat_l; [unfold u24; lra | exact A]).
      assert (u24 * (2 * INR k) <= 1 / 2) as A2 by (unfold u24; lra).
      assert (0 <= u24 * S0 + eta32) as A3 by (unfold u24; lra).
      assert (u24 * (2 * INR k) * (u24 * S0 + eta32) <= 1 / 2 * (u24 * S0 + eta32)) as A4
        by (apply Rmult_le_compat_r; assumption).
      assert (0 <= INR k * (u24 * b2r y)) as A5 by (apply Rmult_le_pos; [lra | apply Rmult_le_pos; [unfold u24; lra | exact Hy]]).
      unfold u24 in *. lra.
    + replace (k + S (length l))%nat with (S k + length l)%nat by lia.
      rewrite <- Rplus_assoc. repeat split; first [assumption | exact G1 | exact G2 | exact G3].
Qed.

(** the draw *)
Lemma loop_b32 tbl lit lg lgam lgam_nu lfact sq pw M (ls : list binary32) : 1 <= M <= 100000000 ->
  forall i t, fin t = true -> 0 <= b2r t <= M ->
  Forall (fun y => fin y = true /\ 0 <= b2r y <= M) ls ->
  match likelihoods_loop (N := NumB tbl lit lg lgam lgam_nu lfact sq pw) i t ls with
  | Some j => exists k, j = (i + k)%nat /\ (k < length ls)%nat /\
      cum (map b2r ls) k - INR k * (u24 * M + eta32) <= b2r t <=
      cum (map b2r ls) (S k) + INR (S k) * (u24 * M + eta32)
  | None => cum (map b2r ls) (length ls) - INR (length ls) * (u24 * M + eta32) <= b2r t
  end.
Proof.
  intros HM. pose proof eta32_pos as He. pose proof bpow127 as HB.
  assert (0 <= u24 * M + eta32) as Hee by (unfold u24; lra).
  induction ls as [| y ls IH]; intros i t Ft Ht Hl; cbn [likelihoods_loop].
  - cbn. lra.
  - inversion Hl as [| ? ? [Fy Hy] Hl']; subst.
    cbn [nsub nleb nof NumB].
    destruct (minus_ok t y Ft Fy) as [E F].
    { eapply Rle_trans; [| exact HB]. apply Rabs_le. lra. }
    pose proof (rnd_err (b2r t - b2r y)) as R1. rewrite <- E in R1.
    assert (Rabs (b2r (b32_minus mode_NE t y) - (b2r t - b2r y)) <= u24 * M + eta32) as R2.
    { eapply Rle_trans; [exact R1 |]. apply Rplus_le_compat_r. apply Rmult_le_compat_l; [unfold u24; lra |].
      apply Rabs_le. lra. }
    apply Rabs_le_inv in R2. destruct zero_val as [Z0 FZ].
    destruct (b32_leb (b32_minus mode_NE t y) (float_of_int 0)) eqn:C.
    + apply leb_ok in C; [| assumption | assumption]. rewrite Z0 in C.
      exists 0%nat. split; [lia |]. split; [cbn; lia |]. unfold cum. cbn [map firstn rsum INR]. lra.
    + assert (0 < b2r (b32_minus mode_NE t y)) as P.
      { destruct (Rlt_or_le 0 (b2r (b32_minus mode_NE t y))) as [G | G]; [exact G |].
        rewrite <- Z0 in G. apply (leb_ok _ _ F FZ) in G. congruence. }
      assert (b2r (b32_minus mode_NE t y) <= b2r t) as P1.
      { rewrite E. rewrite <- (rnd_same t). rewrite rnd_same at 2. rewrite <- (rnd_same t) at 2. apply rnd_le. rewrite ?rnd_same. lra. }
      specialize (IH (S i) (b32_minus mode_NE t y) F ltac:(lra) Hl').
      destruct (likelihoods_loop _ _ _) as [j |].
      * destruct IH as (k & -> & Hk & B). exists (S k). split; [lia |]. split; [cbn; lia |].
        rewrite !S_INR in *. cbn [map]. unfold cum in *. cbn [firstn rsum].
        change (firstn (S k) (map b2r ls)) with (firstn (S k) (map b2r ls)) in B.
        destruct (map b2r ls) as [| z zs] eqn:Ez; cbn [firstn rsum] in *; lra.
      * unfold cum in *. cbn [length map firstn rsum]. rewrite S_INR. lra.
Qed.

Section Scores.
Variable tbl : list Z.
Hypothesis HT : faithful_table tbl.
Variable lit : Z -> Z -> binary32.
Variables lg lgam lgam_nu : binary32 -> binary32.
Variable lfact : Z -> binary32.
Variable sq : binary32 -> binary32.
Variable pw : binary32 -> binary32 -> binary32.
Let N := NumB tbl lit lg lgam lgam_nu lfact sq pw.
Local Existing Instance N.

Definition good_scores (l : list binary32) : Prop :=
  l <> [] /\ (Z.of_nat (length l) <= 1048576)%Z /\
  Forall (fun s => fin s = true /\ Rabs (b2r s) <= 500000000) l.

Definition item_spec (m s y : binary32) : Prop :=
  fast_exp tbl (b32_minus mode_NE s m) = Ok y /\ fin y = true /\ 0 <= b2r y /\
    (b2r s = b2r m -> b2r y = 1) /\
    (-87 <= b2r s - b2r m -> Rabs (b2r y - exp (b2r s - b2r m)) <=
       (2 * Rabs (b2r s - b2r m) + 9) / 8388608 * exp (b2r s - b2r m)) /\
    (b2r s - b2r m < -87 -> b2r y <= bpow radix2 (-124)).

Definition kap : R := 183 / 8388608.
Definition tiny : R := bpow radix2 (-124).
Lemma tiny_pos : 0 < tiny <= / 1000000000000000.
Proof.
  unfold tiny. split; [apply bpow_gt_0 |].
  apply Rle_trans with (bpow radix2 (-50)); [apply bpow_le; lia |].
  change (bpow radix2 (-50)) with (/ IZR (Z.pow_pos 2 50)). apply Rinv_le_contravar; [lra |].
  apply IZR_le. vm_compute. discriminate.
Qed.

Lemma item_close m s y : b2r s <= b2r m -> item_spec m s y ->
  Rabs (b2r y - exp (b2r s - b2r m)) <= kap * exp (b2r s - b2r m) + tiny /\ b2r y <= 101 / 100.
Proof.
  intros Hle (_ & _ & H0 & _ & H1 & H2). pose proof tiny_pos as HP. unfold kap.
  set (d := b2r s - b2r m) in *. pose proof (exp_pos d) as Pd.
  assert (exp d <= 1) as E1 by (rewrite <- exp_0; apply exp_le; unfold d; lra).
  destruct (Rle_or_lt (-87) d) as [L | L].
  - specialize (H1 L). assert (Rabs d <= 87) as A by (apply Rabs_le; unfold d in *; lra).
    assert ((2 * Rabs d + 9) / 8388608 * exp d <= 183 / 8388608 * exp d) as G by (apply Rmult_le_compat_r; lra).
    split; [lra |]. apply Rabs_le_inv in H1. lra.
  - specialize (H2 L). fold tiny in H2. pose proof exp_m87 as E87. fold tiny in E87.
    assert (exp d <= tiny) as G by (eapply Rle_trans; [apply exp_le; left; exact L | exact E87]).
    split; [| lra]. apply Rabs_le. lra.
Qed.

Lemma items_nonneg m l ls : Forall2 (item_spec m) l ls -> Forall (fun y => fin y = true /\ 0 <= b2r y) ls.
Proof. induction 1 as [| s y sc ls' (_ & ? & ? & _) _ IH]; constructor; tauto. Qed.

Lemma items_one m l ls : Forall2 (item_spec m) l ls -> In m l -> 1 <= rsum (map b2r ls).
Proof.
  induction 1 as [| s y sc ls' Hi H2 IH]; intros M1; [destruct M1 |]. cbn [map rsum].
  assert (0 <= rsum (map b2r ls')) as G.
  { apply items_nonneg in H2. clear - H2. induction H2 as [| z l [_ Hz] Hl IH]; cbn [map rsum]; lra. }
  destruct Hi as (_ & _ & Hy & Hi & _). destruct M1 as [-> | M1].
  - rewrite Hi by reflexivity. lra.
  - specialize (IH M1). lra.
Qed.

Lemma items_upper m l ls : (forall s, In s l -> b2r s <= b2r m) -> Forall2 (item_spec m) l ls ->
  rsum (map b2r ls) <= INR (length ls) * (101 / 100).
Proof.
  intros M3 H2. revert M3. induction H2 as [| s y sc ls' Hi H2 IH]; intros M3; [cbn; lra |].
  cbn [map rsum length]. rewrite S_INR. destruct (item_close m s y (M3 s (or_introl eq_refl)) Hi) as [_ G].
  specialize (IH (fun z Hz => M3 z (or_intror Hz))). lra.
Qed.

Lemma likelihoods_b32 l : good_scores l ->
  exists m ls total, In m l /\ (forall s, In s l -> b2r s <= b2r m) /\
    scores_to_likelihoods l = Ok (ls, total) /\ Forall2 (item_spec m) l ls /\
    fin total = true /\ 1 <= rsum (map b2r ls) /\
    Rabs (b2r total - rsum (map b2r ls)) <= INR (length l) / 8000000 * rsum (map b2r ls).
Proof.
  intros (Hne & Hn & Hl). destruct l as [| x l]; [congruence |].
  destruct (stl_fill (F := binary32) _ x l eq_refl) as (m & Em & E).
  assert (vector_max (length (x :: l)) (x :: l) = Ok (fold_left (fun m y => if b32_ltb m y then y else m) l x)) as Em'.
  { rewrite vector_max_fold by (cbn; lia). unfold fold_first. rewrite firstn_all. cbn [fold_left].
    destruct (nltb x x); reflexivity. }
  rewrite Em' in Em. injection Em as Em. clear Em'.
  assert (Forall (fun s => fin s = true) (x :: l)) as HF by (eapply Forall_impl; [| exact Hl]; cbn; tauto).
  destruct (fold_max_b32 l x) as (M1 & M2 & M3); [now inversion HF | now inversion HF |].
  cbv zeta in M1, M2, M3. rewrite Em in *.
  exists m, (map (fun s => exp_or_nan tbl (b32_minus mode_NE s m)) (x :: l)),
    (fold_left (b32_plus mode_NE) (map (fun s => exp_or_nan tbl (b32_minus mode_NE s m)) (x :: l)) (float_of_int 0)).
  split; [exact M1 |]. split; [exact M3 |]. split; [exact E |].
  set (scores := x :: l) in *. set (ls := map _ scores).
  assert (Rabs (b2r m) <= 500000000) as Hm.
  { rewrite Forall_forall in Hl. apply (Hl m M1). }
  assert (Forall2 (item_spec m) scores ls) as H2.
  { unfold ls. clear E Hn Hne ls M1 Em. rewrite Forall_forall in Hl.
    assert (forall s, In s scores -> item_spec m s (exp_or_nan tbl (b32_minus mode_NE s m))) as G.
    { intros s Hs. destruct (Hl s Hs) as [Fs As].
      destruct (item tbl s m HT Fs M2 As Hm (M3 s Hs)) as (y & Ey & R). unfold item_spec, exp_or_nan.
      rewrite Ey. split; [reflexivity | exact R]. }
    clear - G. induction scores as [| s sc IH]; cbn [map]; constructor; [apply G; now left | apply IH; intros; apply G; now right]. }
  split; [exact H2 |].
  assert (length ls = length scores) as HL by apply map_length.
  assert (Forall (fun y => fin y = true /\ 0 <= b2r y) ls) as HP.
  { exact (items_nonneg _ _ _ H2). }
  assert (1 <= rsum (map b2r ls)) as H1 by exact (items_one _ _ _ H2 M1).
  assert (rsum (map b2r ls) <= INR (length ls) * (101 / 100)) as HU by exact (items_upper _ _ _ M3 H2).
  assert (0 <= INR (length ls) <= 1048576) as Hlen.
  { split; [apply pos_INR |]. rewrite INR_IZR_INZ. apply IZR_le. lia. }
  destruct zero_val as [Z0 FZ].
  assert (Z.of_nat (length ls) <= 4194304)%Z as HZ by lia.
  destruct (sum_b32 ls (float_of_int 0) FZ ltac:(lra) HP ltac:(lra) HZ) as (G1 & G2 & G3).
  split; [exact G1 |]. split; [exact H1 |]. rewrite Z0, Rplus_0_l in G3.
  change (@length (binary_float 24 128) ls) with (@length binary32 ls) in G3. rewrite HL in G3, Hlen.
  eapply Rle_trans; [exact G3 |]. pose proof eta32_pos as He.
  generalize dependent (rsum (map b2r ls)). generalize dependent (INR (length scores)).
  clear - He. unfold u24. intros n Hn S H1 _ _.
  assert (0 <= n * S) as P by (apply Rmult_le_pos; lra).
  assert (n * eta32 <= n * (/ 1000000000000 * S)) as P1 by (apply Rmult_le_compat_l; lra).
  lra.
Qed.

(** the exact weights relative to the largest *)
Lemma rsum_close (m : binary32) (l ls : list binary32) : (forall s, In s l -> b2r s <= b2r m) -> Forall2 (item_spec m) l ls -> forall i,
  Rabs (cum (map b2r ls) i - cum (map (fun s => exp (b2r s - b2r m)) l) i) <=
    kap * cum (map (fun s => exp (b2r s - b2r m)) l) i + INR (length l) * tiny.
Proof.
  intros Hm H2. pose proof tiny_pos as HP. induction H2 as [| s y l ls Hi H2 IH]; intros i; unfold cum in *.
  - rewrite !firstn_nil. cbn. rewrite Rminus_0_r, Rabs_R0. lra.
  - destruct i as [| i]; cbn [map firstn rsum length].
    + rewrite Rminus_0_r, Rabs_R0, Rmult_0_r, Rplus_0_l. apply Rmult_le_pos; [apply pos_INR | lra].
    + rewrite S_INR. specialize (IH (fun z Hz => Hm z (or_intror Hz)) i).
      destruct (item_close m s y (Hm s (or_introl eq_refl)) Hi) as [G _].
      match goal with |- Rabs (?a + ?b - (?c + ?d)) <= _ => replace (a + b - (c + d)) with ((a - c) + (b - d)) by ring end.
      eapply Rle_trans; [apply Rabs_triang |]. lra.
Qed.

Lemma cum_weights m l i :
  cum (map (fun s => exp (b2r s - m)) l) i = cum (softmax (map b2r l)) i * rsum (map (fun s => exp (b2r s - m)) l).
Proof.
  destruct l as [| x l]; [unfold cum; cbn; destruct i; cbn; lra |].
  assert (forall l', rsum (map (fun s => exp (b2r s - m)) l') = rsum (map exp (map b2r l')) * exp (- m)) as E.
  { induction l' as [| s l' IH]; cbn [map rsum]; [lra |]. rewrite IH. unfold Rminus at 1. rewrite exp_plus. ring. }
  unfold cum, softmax. rewrite E. pose proof (rsum_exp_pos (map b2r (x :: l)) ltac:(discriminate)) as P.
  set (W := rsum (map exp (map b2r (x :: l)))) in *. rewrite map_map.
  rewrite !firstn_map, E. rewrite map_map.
  enough (forall l', rsum (map (fun s => exp (b2r s) / W) l') * W = rsum (map (fun s => exp (b2r s)) l')) as G
    by (rewrite <- (G (firstn i (x :: l))); ring).
  induction l' as [| s l' IH]; cbn [map rsum]; [lra |]. rewrite Rmult_plus_distr_r, IH. field. lra.
Qed.

Lemma cum_bounds l i : Forall (fun x => 0 <= x) l -> 0 <= cum l i <= rsum l.
Proof.
  intros H. split.
  - replace 0 with (cum l 0) by reflexivity. apply cum_mono; [exact H | lia].
  - rewrite <- (cum_all l (length l)) by lia.
    destruct (Nat.le_gt_cases i (length l)); [now apply cum_mono |].
    rewrite cum_all by lia. rewrite cum_all by lia. lra.
Qed.

Definition slack (n : nat) : R := 1 / 15000 + INR n / 3500000.

Lemma sample_b32 (l : list binary32) (u : binary32) : good_scores l -> fin u = true -> 0 <= b2r u <= 1 ->
  exists i ls, sample_from_scores_overwrite u l = Ok (i, ls) /\ (i < length l)%nat /\
    cum (softmax (map b2r l)) i - slack (length l) <= b2r u <= cum (softmax (map b2r l)) (S i) + slack (length l).
Proof.
  intros Hg Fu Hu. destruct (likelihoods_b32 l Hg) as (m & ls & total & Hin & Hm & E & H2 & Ft & H1 & HS).
  unfold sample_from_scores_overwrite. rewrite E. cbn [obind fst snd]. clear E.
  pose proof (rsum_close m l ls Hm H2) as HC.
  destruct Hg as (Hne & Hn & _). unfold binary32 in *.
  assert (length ls = length l) as HL by (clear - H2; induction H2; cbn [length]; congruence).
  assert (1 <= INR (length l) <= 1048576) as Hlen.
  { split; [| rewrite INR_IZR_INZ; apply IZR_le; lia].
    change 1 with (INR 1). apply le_INR. destruct l; [congruence | cbn; lia]. }
  set (n := INR (length l)) in *. set (S := rsum (map b2r ls)) in *.
  fold n in HC.
  set (w := map (fun s => exp (b2r s - b2r m)) l) in *. set (W := rsum w).
  pose proof tiny_pos as HTy. pose proof eta32_pos as He. pose proof bpow127 as HB.
  assert (Forall (fun x => 0 <= x) w) as Hw.
  { unfold w. apply Forall_forall. intros z Hz. apply in_map_iff in Hz as (s & <- & _). left. apply exp_pos. }
  assert (forall i, 0 <= cum w i <= W) as Hcw by (intros; now apply cum_bounds).
  assert (1 <= W) as HW1.
  { unfold W, w. clear - Hin. induction l as [| s l IH]; [destruct Hin |]. cbn [map rsum].
    assert (0 <= rsum (map (fun s => exp (b2r s - b2r m)) l)) as G.
    { clear. induction l as [| s l IH]; cbn [map rsum]; [lra |]. pose proof (exp_pos (b2r s - b2r m)). lra. }
    destruct Hin as [-> | Hin].
    - replace (b2r m - b2r m) with 0 by ring. rewrite exp_0. lra.
    - pose proof (exp_pos (b2r s - b2r m)). specialize (IH Hin). lra. }
  assert (n * tiny <= / 100000 * / 100 * W) as Hnt.
  { apply Rle_trans with (1048576 * / 1000000000000000); [apply Rmult_le_compat; lra | lra]. }
  assert (forall i, Rabs (cum (map b2r ls) i - cum w i) <= 220 / 10000000 * W) as HC'.
  { intros i. eapply Rle_trans; [apply HC |]. unfold kap. destruct (Hcw i). lra. }
  assert (Rabs (S - W) <= 220 / 10000000 * W) as HSW.
  { unfold S, W. rewrite <- (cum_all (map b2r ls) (length l)) by (rewrite map_length; lia).
    rewrite <- (cum_all w (length l)) by (unfold w; rewrite map_length; lia). rewrite (cum_all w) at 2 by (unfold w; rewrite map_length; lia). apply HC'. }
  apply Rabs_le_inv in HSW.
  assert (S <= 102 / 100 * n) as HSn.
  { assert (W <= n) as G.
    { unfold W, w, n. clear - Hm. induction l as [| s l IH]; [cbn; lra |]. cbn [map rsum length]. rewrite S_INR.
      assert (exp (b2r s - b2r m) <= 1) as G by (rewrite <- exp_0; apply exp_le; specialize (Hm s (or_introl eq_refl)); lra).
      specialize (IH (fun z Hz => Hm z (or_intror Hz))). lra. }
    lra. }
  assert (n / 8000000 * S <= 132 / 1000 * S) as Hk by (apply Rmult_le_compat_r; lra).
  pose proof (Rabs_le_inv _ _ HS) as HS'.
  (* the scaled draw *)
  destruct (mult_ok total u Ft Fu) as [E0 F0].
  { eapply Rle_trans; [| exact HB]. rewrite Rabs_mult, (Rabs_pos_eq (b2r total)), (Rabs_pos_eq (b2r u)) by lra.
    apply Rle_trans with (b2r total * 1); [apply Rmult_le_compat_l; lra | lra]. }
  pose proof (rnd_err (b2r total * b2r u)) as R0. rewrite <- E0 in R0.
  set (t0 := b32_mult mode_NE total u) in *.
  assert (0 <= b2r total * b2r u <= b2r total) as Htu.
  { split; [apply Rmult_le_pos; lra |]. rewrite <- (Rmult_1_r (b2r total)) at 2. apply Rmult_le_compat_l; lra. }
  rewrite (Rabs_pos_eq (b2r total * b2r u)) in R0 by lra. pose proof (Rabs_le_inv _ _ R0) as R0'.
  assert (0 <= b2r t0) as Ht0.
  { rewrite E0, <- rnd_0. apply rnd_le. lra. }
  assert (u24 * (b2r total * b2r u) <= / 16777216 * (114 / 100 * S)) as Hq.
  { unfold u24. apply Rmult_le_compat_l; lra. }
  assert (Forall (fun y => fin y = true /\ 0 <= b2r y <= 115 / 100 * S) ls) as HF.
  { clear - H2 Hm H1. assert (1 <= S) as H1' by exact H1. clearbody S. clear H1.
    induction H2 as [| s y l ls Hi H2 IH]; constructor.
    - destruct (item_close m s y (Hm s (or_introl eq_refl)) Hi) as [_ G]. destruct Hi as (_ & A & B & _). split; [exact A | lra].
    - apply IH. intros z Hz. apply Hm. now right. }
  pose proof (loop_b32 tbl lit lg lgam lgam_nu lfact sq pw (115 / 100 * S) ls ltac:(lra) 0%nat t0 F0 ltac:(lra) HF) as HLp.
  unfold sample_from_likelihoods. rewrite HL.
  assert ((0 <? length l)%nat = true) as -> by (apply Nat.ltb_lt; destruct l; [congruence | cbn; lia]).
  cbn [dassert obind]. change (nmul total u) with t0.
  assert (Rabs (b2r t0 - b2r u * S) <= (n / 8000000 + 1 / 10000000) * S) as Hus.
  { replace (b2r t0 - b2r u * S) with ((b2r t0 - b2r total * b2r u) + b2r u * (b2r total - S)) by ring.
    eapply Rle_trans; [apply Rabs_triang |]. rewrite (Rabs_mult (b2r u)), (Rabs_pos_eq (b2r u)) by lra.
    assert (b2r u * Rabs (b2r total - S) <= 1 * (n / 8000000 * S)) as G.
    { apply Rmult_le_compat; try lra. apply Rabs_pos. }
    lra. }
  apply Rabs_le_inv in Hus.
  assert (forall k, 0 <= k <= n -> k * (u24 * (115 / 100 * S) + eta32) <= n / 14000000 * S) as Hke.
  { intros k Hk0. apply Rle_trans with (n * (1 / 14000000 * S)); [| lra]. apply Rmult_le_compat; unfold u24; lra. }
  (* back to the exact weights *)
  assert (forall i, (cum (map b2r ls) i - (n / 14000000 * S) <= b2r t0 -> cum (softmax (map b2r l)) i - slack (length l) <= b2r u) /\
                    (b2r t0 <= cum (map b2r ls) i + (n / 14000000 * S) -> b2r u <= cum (softmax (map b2r l)) i + slack (length l))) as Hback.
  { intros i. specialize (HC' i). apply Rabs_le_inv in HC'.
    pose proof (cum_weights (b2r m) l i) as EC. fold w in EC. fold W in EC. rewrite EC in HC'.
    unfold slack. fold n. set (c := cum (softmax (map b2r l)) i) in *.
    assert (n * W <= n * (100003 / 100000 * W)) as _ by nra.
    assert (n * S <= n * (100003 / 100000 * W)) as HnS by (apply Rmult_le_compat_l; lra).
    assert (b2r u * S <= b2r u * W + 220 / 10000000 * W) as Hu1.
    { assert (b2r u * (S - W) <= 1 * (220 / 10000000 * W)); [| lra].
      apply Rle_trans with (b2r u * (220 / 10000000 * W)); [apply Rmult_le_compat_l; lra | apply Rmult_le_compat_r; lra]. }
    assert (b2r u * W <= b2r u * S + 220 / 10000000 * W) as Hu2.
    { assert (b2r u * (W - S) <= 1 * (220 / 10000000 * W)); [| lra].
      apply Rle_trans with (b2r u * (220 / 10000000 * W)); [apply Rmult_le_compat_l; lra | apply Rmult_le_compat_r; lra]. }
    split; intros Hi; apply Rmult_le_reg_r with W; try lra; nra. }
  match goal with |- context [@likelihoods_loop ?F ?I ?i ?t ?l0] => set (o := @likelihoods_loop F I i t l0) end.
  match type of HLp with context [@likelihoods_loop ?F ?I ?i ?t ?l0] => change (@likelihoods_loop F I i t l0) with o in HLp end.
  clearbody o. unfold binary32 in *. destruct o as [j |].
  - destruct HLp as (k & -> & Hk' & B1 & B2). exists (0 + k)%nat, ls. split; [reflexivity |]. split; [lia |].
    cbn [Nat.add]. split.
    + apply Hback. assert (INR k * (u24 * (115 / 100 * S) + eta32) <= n / 14000000 * S); [| lra].
      apply Hke. split; [apply pos_INR | apply le_INR; lia].
    + apply Hback. assert (INR (Datatypes.S k) * (u24 * (115 / 100 * S) + eta32) <= n / 14000000 * S); [| lra].
      apply Hke. split; [apply pos_INR | apply le_INR; lia].
  - exists (length l - 1)%nat, ls. split; [reflexivity |].
    assert (0 < length l)%nat as Hl0 by (destruct l; [congruence | cbn; lia]).
    split; [lia |]. split.
    + apply Hback. rewrite HL in HLp. fold n in HLp.
      assert (cum (map b2r ls) (length l - 1) <= cum (map b2r ls) (length l)) as G.
       { apply cum_mono; [| lia]. clear - HF. induction HF as [| y l [_ Hy] _ IH]; cbn [map]; constructor; tauto. }
      pose proof (Hke n ltac:(lra)). lra.
    + replace (Datatypes.S (length l - 1)) with (length l) by lia.
      rewrite cum_all by (unfold softmax; rewrite !map_length; lia).
      assert (rsum (softmax (map b2r l)) = 1) as ->.
      { pose proof (cum_weights (b2r m) l (length l)) as EC. fold w in EC. fold W in EC.
        rewrite !cum_all in EC by (unfold softmax, w; rewrite ?map_length; lia). fold W in EC.
        apply Rmult_eq_reg_r with W; lra. }
      unfold slack. fold n. lra.
Qed.

Lemma div_ok x y : fin x = true -> b2r y <> 0 -> Rabs (b2r x / b2r y) <= bpow radix2 127 ->
  b2r (b32_div mode_NE x y) = rnd (b2r x / b2r y) /\ fin (b32_div mode_NE x y) = true.
Proof.
  intros Fx Hy H. unfold b32_div.
  pose proof (Binary.Bdiv_correct 24 128 (refl_equal _) (refl_equal _) binop_nan_pl32 mode_NE x y Hy) as C.
  pose proof (no_overflow _ H) as O. unfold rnd in O. cbn [round_mode] in C. rewrite O in C.
  destruct C as (C1 & C2 & _). split; [exact C1 |]. now rewrite C2, Fx.
Qed.

Lemma weights_sum m l ls : (forall s, In s l -> b2r s <= b2r m) -> In m l -> Forall2 (item_spec m) l ls ->
  (Z.of_nat (length l) <= 1048576)%Z ->
  let W := rsum (map (fun s => exp (b2r s - b2r m)) l) in
  1 <= W /\ Rabs (rsum (map b2r ls) - W) <= 220 / 10000000 * W /\ W <= INR (length l).
Proof.
  intros Hm Hin H2 Hn W. pose proof tiny_pos as HTy.
  assert (forall l', 0 <= rsum (map (fun s => exp (b2r s - b2r m)) l')) as G.
  { induction l' as [| s l' IH]; cbn [map rsum]; [lra |]. pose proof (exp_pos (b2r s - b2r m)). lra. }
  assert (1 <= W) as HW1.
  { unfold W. clear - Hin G. induction l as [| s l IH]; [destruct Hin |]. cbn [map rsum]. specialize (G l).
    destruct Hin as [-> | Hin].
    - replace (b2r m - b2r m) with 0 by ring. rewrite exp_0. lra.
    - pose proof (exp_pos (b2r s - b2r m)). specialize (IH Hin). lra. }
  split; [exact HW1 |]. split.
  - pose proof (rsum_close m l ls Hm H2 (length l)) as HC.
    assert (length ls = length l) as HL by (clear - H2; induction H2; cbn [length]; congruence).
    unfold binary32 in *.
    rewrite !cum_all in HC by (rewrite map_length; lia). fold W in HC. eapply Rle_trans; [exact HC |].
    assert (INR (length l) <= 1048576) as Hlen by (rewrite INR_IZR_INZ; apply IZR_le; lia).
    pose proof (pos_INR (length l)) as Hlen0.
    assert (INR (length l) * tiny <= 1048576 * / 1000000000000000) as G1 by (apply Rmult_le_compat; lra).
    unfold kap. lra.
  - unfold W. clear - Hm. induction l as [| s l IH]; [cbn; lra |]. cbn [map rsum length]. rewrite S_INR.
    assert (exp (b2r s - b2r m) <= 1) as G by (rewrite <- exp_0; apply exp_le; specialize (Hm s (or_introl eq_refl)); lra).
    specialize (IH (fun z Hz => Hm z (or_intror Hz))). lra.
Qed.

Lemma softmax_weight m (l : list binary32) s :
  l <> [] -> exp (b2r s) / rsum (map exp (map b2r l)) =
  exp (b2r s - m) / rsum (map (fun s => exp (b2r s - m)) l).
Proof.
  intros Hne.
  assert (forall l', rsum (map (fun s => exp (b2r s - m)) l') = rsum (map exp (map b2r l')) * exp (- m)) as E.
  { induction l' as [| z l' IH]; cbn [map rsum]; [lra |]. rewrite IH. unfold Rminus at 1. rewrite exp_plus. ring. }
  pose proof (rsum_exp_pos (map b2r l) ltac:(destruct l; [congruence | discriminate])) as P.
  unfold binary32 in *. rewrite E. unfold Rminus. rewrite exp_plus. pose proof (exp_pos (- m)). field. lra.
Qed.

Lemma probs_b32 (l : list binary32) : good_scores l ->
  exists ps, scores_to_probs l = Ok ps /\
    Forall2 (fun p q => fin p = true /\ 0 <= b2r p /\ Rabs (b2r p - q) <= slack (length l)) ps (softmax (map b2r l)).
Proof.
  intros Hg. destruct (likelihoods_b32 l Hg) as (m & ls & total & Hin & Hm & E & H2 & Ft & H1 & HS).
  destruct Hg as (Hne & Hn & _).
  destruct (weights_sum m l ls Hm Hin H2 Hn) as (W1 & W2 & W3).
  assert (length ls = length l) as HL by (clear - H2; induction H2; cbn [length]; congruence).
  unfold scores_to_probs. rewrite E. cbn [obind fst snd]. unfold vector_scale. rewrite <- HL.
  rewrite (vupdate_list _ (fun x => nmul x (ndiv (nof 1) total))) by reflexivity.
  eexists. split; [reflexivity |].
  assert (1 <= INR (length l) <= 1048576) as Hlen.
  { split; [| rewrite INR_IZR_INZ; apply IZR_le; lia].
    change 1 with (INR 1). apply le_INR. destruct l; [congruence | cbn; lia]. }
  unfold slack. cbn [nmul ndiv nof N NumB].
  assert (forall s y, In s l -> item_spec m s y ->
    let p := b32_mult mode_NE y (b32_div mode_NE (float_of_int 1) total) in
    fin p = true /\ 0 <= b2r p /\
    Rabs (b2r p - exp (b2r s) / rsum (map exp (map b2r l))) <= 1 / 15000 + INR (length l) / 3500000) as G.
  { intros s y Hs Hi p. rewrite (softmax_weight (b2r m) l s Hne).
    destruct (item_close m s y (Hm s Hs) Hi) as [I1 I2]. destruct Hi as (_ & Fy & Y0 & _).
    assert (0 < exp (b2r s - b2r m) <= 1) as He1.
    { split; [apply exp_pos |]. rewrite <- exp_0. apply exp_le. specialize (Hm s Hs). lra. }
    clear - HS W1 W2 W3 I1 I2 He1 Fy Y0 Ft H1 Hlen.
    set (e := exp (b2r s - b2r m)) in *. set (W := rsum (map (fun s => exp (b2r s - b2r m)) l)) in *.
    set (S := rsum (map b2r ls)) in *.
    unfold binary32 in *. set (n := INR (length l)) in *. clearbody e W S n.
    apply Rabs_le_inv in HS, W2. pose proof tiny_pos as HTy. pose proof eta32_pos as Het. pose proof bpow127 as HB.
    assert (n / 8000000 * S <= 132 / 1000 * S) as Hk by (apply Rmult_le_compat_r; lra).
    set (T := b2r total) in *. assert (867 / 1000 * W <= T) as HT1 by lra.
    assert (0 < / W <= 1) as HiW.
    { split; [apply Rinv_0_lt_compat; lra |]. rewrite <- Rinv_1. apply Rinv_le_contravar; lra. }
    assert (0 < / T <= 1154 / 1000 * / W) as HiT.
    { split; [apply Rinv_0_lt_compat; lra |].
      apply Rle_trans with (/ (867 / 1000 * W)); [apply Rinv_le_contravar; lra |]. rewrite Rinv_mult. lra. }
    destruct (int_ok 1 eq_refl) as [E1 F1].
    destruct (div_ok (float_of_int 1) total F1) as [Er Fr].
    { fold T. lra. }
    { rewrite E1. fold T. eapply Rle_trans; [| exact HB]. unfold Rdiv. rewrite Rmult_1_l. rewrite Rabs_pos_eq; lra. }
    rewrite E1 in Er. fold T in Er. unfold Rdiv in Er. rewrite Rmult_1_l in Er.
    pose proof (rnd_err (/ T)) as R1. rewrite <- Er in R1. rewrite (Rabs_pos_eq (/ T)) in R1 by lra.
    set (r := b2r (b32_div mode_NE (float_of_int 1) total)) in *.
    pose proof (Rabs_le_inv _ _ R1) as R1'. unfold u24 in R1, R1'.
    assert (0 <= r <= 116 / 100) as Hr by (split; [rewrite Er, <- rnd_0; apply rnd_le; lra | lra]).
    assert (0 <= b2r y * r <= 12 / 10) as Hyr.
    { split; [apply Rmult_le_pos; lra |]. apply Rle_trans with (101 / 100 * (116 / 100)); [apply Rmult_le_compat; lra | lra]. }
    destruct (mult_ok y (b32_div mode_NE (float_of_int 1) total) Fy Fr) as [Ep Fp].
    { fold r. eapply Rle_trans; [| exact HB]. rewrite Rabs_pos_eq; lra. }
    fold p in Ep, Fp. fold r in Ep. pose proof (rnd_err (b2r y * r)) as R2. rewrite <- Ep in R2.
    rewrite (Rabs_pos_eq (b2r y * r)) in R2 by lra. unfold u24 in R2.
    split; [exact Fp |]. split; [rewrite Ep, <- rnd_0; apply rnd_le; lra |].
    replace (b2r p - e / W) with ((b2r p - b2r y * r) + b2r y * (r - / T) + (b2r y - e) * / T + e * (/ T - / W)) by (unfold Rdiv; ring).
    assert (Rabs (b2r y * (r - / T)) <= 101 / 100 * (/ 16777216 * (116 / 100) + eta32)) as B2.
    { rewrite Rabs_mult, (Rabs_pos_eq (b2r y)) by lra. apply Rmult_le_compat; try lra. apply Rabs_pos. }
    assert (Rabs ((b2r y - e) * / T) <= (kap + tiny) * (1154 / 1000)) as B3.
    { rewrite Rabs_mult, (Rabs_pos_eq (/ T)) by lra. apply Rmult_le_compat; try lra; [apply Rabs_pos |].
      eapply Rle_trans; [exact I1 |]. unfold kap. lra. }
    assert (Rabs (e * (/ T - / W)) <= 1 * (1154 / 1000 * (225 / 10000000 + n / 7990000))) as B4.
    { rewrite Rabs_mult, (Rabs_pos_eq e) by lra. apply Rmult_le_compat; try lra; [apply Rabs_pos |].
      replace (/ T - / W) with (/ T * ((W - T) * / W)) by (field; lra).
      rewrite Rabs_mult, (Rabs_pos_eq (/ T)) by lra. apply Rmult_le_compat; try lra; [apply Rabs_pos |].
      apply Rle_trans with ((225 / 10000000 + n / 7990000) * W * / W); [| right; field; lra].
      rewrite Rabs_mult, (Rabs_pos_eq (/ W)) by lra. apply Rmult_le_compat_r; [lra |].
      assert (n * S <= n * (100003 / 100000 * W)) as HnS by (apply Rmult_le_compat_l; lra).
      assert (0 <= n * W) as HnW by (apply Rmult_le_pos; lra).
      apply Rabs_le. lra. }
    eapply Rle_trans; [apply Rabs_triang |]. eapply Rle_trans; [apply Rplus_le_compat_r; apply Rabs_triang |].
    eapply Rle_trans; [apply Rplus_le_compat_r; apply Rplus_le_compat_r; apply Rabs_triang |].
    unfold kap in B3. lra. }
  unfold softmax.
  assert (forall l0 ls0, (forall s, In s l0 -> In s l) -> Forall2 (item_spec m) l0 ls0 ->
    Forall2 (fun p q => fin p = true /\ 0 <= b2r p /\ Rabs (b2r p - q) <= 1 / 15000 + INR (length l) / 3500000)
      (map (fun x => b32_mult mode_NE x (b32_div mode_NE (float_of_int 1) total)) ls0)
      (map (fun s => exp s / rsum (map exp (map b2r l))) (map b2r l0))) as K.
  { intros l0 ls0 Hsub H. induction H as [| s y l0 ls0 Hi H IH]; cbn [map]; constructor.
    - apply (G s y); [apply Hsub; now left | exact Hi].
    - apply IH. intros z Hz. apply Hsub. now right. }
  rewrite HL. exact (K l ls (fun s H => H) H2).
Qed.
End Scores.
