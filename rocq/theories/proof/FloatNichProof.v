(** The streaming mean and variance of NormalInverseChiSq in single precision. *)
From Coq Require Import Reals Lra Lia Psatz List.
From Flocq Require Import Core BinarySingleNaN Binary Bits Plus_error.
From Verif.model Require Import Base Num FastExp FloatNum Component HistoryRun NICH.
From Verif.spec Require Import FlavorSpec.
From Verif.proof Require Import BaseProof FastExpProof FlavorProof FloatScoresProof.
Import ListNotations.
Local Open Scope R_scope.

(** ** An operation with a finite result had finite operands *)
Lemma overflow_inf s : exists s', binary_overflow 24 128 mode_NE s = F754_infinity s'.
Proof. exists s. reflexivity. Qed.

Lemma plus_fin x y : fin (b32_plus mode_NE x y) = true ->
  fin x = true /\ fin y = true /\ b2r (b32_plus mode_NE x y) = rnd (b2r x + b2r y).
Proof.
  intros H. assert (fin x = true /\ fin y = true) as [Fx Fy].
  { destruct x as [|[]| |], y as [|[]| |]; cbn in H; try discriminate; auto. }
  split; [exact Fx |]. split; [exact Fy |]. unfold b32_plus in *.
  pose proof (Binary.Bplus_correct 24 128 (refl_equal _) (refl_equal _) binop_nan_pl32 mode_NE x y Fx Fy) as C.
  cbn [round_mode] in C. destruct (Rlt_bool _ _).
  - apply C.
  - destruct C as [C _]. destruct (Binary.Bplus _ _ _ _ _ _ _ _); cbn in C, H; discriminate.
Qed.
Lemma minus_fin x y : fin (b32_minus mode_NE x y) = true ->
  fin x = true /\ fin y = true /\ b2r (b32_minus mode_NE x y) = rnd (b2r x - b2r y).
Proof.
  intros H. assert (fin x = true /\ fin y = true) as [Fx Fy].
  { destruct x as [|[]| |], y as [|[]| |]; cbn in H; try discriminate; auto. }
  split; [exact Fx |]. split; [exact Fy |]. unfold b32_minus in *.
  pose proof (Binary.Bminus_correct 24 128 (refl_equal _) (refl_equal _) binop_nan_pl32 mode_NE x y Fx Fy) as C.
  cbn [round_mode] in C. destruct (Rlt_bool _ _).
  - apply C.
  - destruct C as [C _]. destruct (Binary.Bminus _ _ _ _ _ _ _ _); cbn in C, H; discriminate.
Qed.
Lemma mult_fin x y : fin (b32_mult mode_NE x y) = true ->
  fin x = true /\ fin y = true /\ b2r (b32_mult mode_NE x y) = rnd (b2r x * b2r y).
Proof.
  intros H. assert (fin x = true /\ fin y = true) as [Fx Fy] by (destruct x, y; cbn in H; try discriminate; auto).
  split; [exact Fx |]. split; [exact Fy |]. unfold b32_mult in *.
  pose proof (Binary.Bmult_correct 24 128 (refl_equal _) (refl_equal _) binop_nan_pl32 mode_NE x y) as C.
  cbn [round_mode] in C. destruct (Rlt_bool _ _).
  - apply C.
  - destruct (Binary.Bmult _ _ _ _ _ _ _ _); cbn in C, H; discriminate.
Qed.
Lemma div_fin x y : fin (b32_div mode_NE x y) = true -> fin y = true ->
  fin x = true /\ b2r y <> 0 /\ b2r (b32_div mode_NE x y) = rnd (b2r x / b2r y).
Proof.
  intros H Fy. assert (fin x = true /\ b2r y <> 0) as [Fx N0].
  { destruct x, y as [| | |sy my ey By]; cbn in H; try discriminate; split; auto.
    all: cbn; intro X; apply eq_0_F2R in X; destruct sy; discriminate X. }
  split; [exact Fx |]. split; [exact N0 |]. unfold b32_div in *.
  pose proof (Binary.Bdiv_correct 24 128 (refl_equal _) (refl_equal _) binop_nan_pl32 mode_NE x y N0) as C.
  cbn [round_mode] in C. destruct (Rlt_bool _ _).
  - apply C.
  - destruct (Binary.Bdiv _ _ _ _ _ _ _ _); cbn in C, H; discriminate.
Qed.

Lemma i32_lt z r : i32 z = Ok r -> (z < 2147483648)%Z.
Proof.
  unfold i32. destruct (i32_min <=? z)%Z; cbn [andb]; [|discriminate].
  destruct (Z.leb_spec z i32_max) as [L|L]; [|discriminate]. intros _. unfold i32_max in L. lia.
Qed.

Lemma rnd_opp x : rnd (- x) = - rnd x.
Proof. apply round_NE_opp. Qed.
Lemma rnd_pos x : 0 <= x -> 0 <= rnd x.
Proof. intros H. rewrite <- rnd_0. now apply rnd_le. Qed.
Lemma rnd_neg x : x <= 0 -> rnd x <= 0.
Proof. intros H. rewrite <- rnd_0. now apply rnd_le. Qed.

(** int to float, every int *)
Lemma int_rnd n : (Z.abs n <= 4294967296)%Z -> b2r (float_of_int n) = rnd (IZR n) /\ fin (float_of_int n) = true.
Proof.
  intros H. unfold float_of_int.
  pose proof (Binary.binary_normalize_correct 24 128 prec32 emax32 mode_NE n 0 false) as C.
  assert (F2R (Float radix2 n 0) = IZR n) as E by (unfold F2R; cbn; ring).
  rewrite E in C. cbn [round_mode] in C.
  assert (Rabs (IZR n) <= bpow radix2 127) as HB.
  { pose proof bpow127. rewrite <- abs_IZR. apply Rle_trans with (IZR 4294967296); [apply IZR_le; lia | lra]. }
  pose proof (no_overflow _ HB) as O. unfold rnd in O. rewrite O in C. destruct C as (C1 & C2 & _). now split.
Qed.
Lemma int_ge n k : (Z.abs n <= 4294967296)%Z -> (k <= n)%Z -> (Z.abs k < 16777216)%Z -> IZR k <= b2r (float_of_int n).
Proof.
  intros Hn H Hk. rewrite (proj1 (int_rnd n Hn)). destruct (int_ok k Hk) as [E _]. rewrite <- E, <- rnd_same.
  apply rnd_le. rewrite E. now apply IZR_le.
Qed.

(** ** One step of the running mean does not overshoot *)
Lemma step_q x D q C : 0 <= x -> generic_format radix2 (SpecFloat.fexp 24 128) x \/ bpow radix2 (-125) <= x ->
  D = rnd x -> 2 <= C -> q = rnd (D / C) -> 0 <= q <= x.
Proof.
  intros Hx HX -> HC ->. pose proof (rnd_pos x Hx) as HD.
  assert (0 <= rnd x / C <= rnd x / 2) as [Q0 Q1].
  { split; [apply Rle_mult_inv_pos; lra |]. apply Rmult_le_compat_l; [exact HD |]. apply Rinv_le_contravar; lra. }
  split; [now apply rnd_pos |].
  destruct HX as [HX | HX].
  - assert (rnd x = x) as E by (apply round_generic; [apply valid_rnd_N | exact HX]).
    rewrite E in *. rewrite <- E at 2. apply rnd_le. lra.
  - apply Rle_trans with (rnd (rnd x / 2)); [now apply rnd_le |].
    pose proof (rnd_err x) as E1. pose proof (rnd_err (rnd x / 2)) as E2.
    rewrite (Rabs_pos_eq x) in E1 by exact Hx. rewrite (Rabs_pos_eq (rnd x / 2)) in E2 by lra.
    apply Rabs_le_inv in E1, E2. unfold u24 in *.
    assert (eta32 <= x / 33554432) as He.
    { unfold eta32. replace (-150)%Z with (-125 + -25)%Z by reflexivity. rewrite bpow_plus.
      change (bpow radix2 (-25)) with (/ 33554432). lra. }
    lra.
Qed.

Lemma diff_format v m : generic_format radix2 (SpecFloat.fexp 24 128) (b2r v - b2r m) \/ bpow radix2 (-125) <= Rabs (b2r v - b2r m).
Proof.
  destruct (Rle_or_lt (bpow radix2 (-125)) (Rabs (b2r v - b2r m))) as [H | H]; [now right | left].
  unfold Rminus. change (SpecFloat.fexp 24 128) with (FLT_exp (-149) 24).
  assert (Prec_gt_0 24) as P24 by reflexivity. apply (FLT_format_plus_small radix2 (-149) 24).
  - apply generic_format_B2R.
  - apply generic_format_opp. apply generic_format_B2R.
  - change (24 + -149)%Z with (-125)%Z. unfold Rminus in H. lra.
Qed.

(** The new mean lies between the old mean and the value. *)
Lemma mean_between v m C : 2 <= C -> let D := rnd (b2r v - b2r m) in let m' := rnd (b2r m + rnd (D / C)) in
  (b2r m <= b2r v -> 0 <= D /\ b2r m <= m' <= b2r v) /\ (b2r v <= b2r m -> D <= 0 /\ b2r v <= m' <= b2r m).
Proof.
  intros HC D m'. destruct (diff_format v m) as [HF | HF].
  all: split; intros H.
  1,3: assert (0 <= rnd (D / C) <= b2r v - b2r m) as Q
       by (apply (step_q (b2r v - b2r m) D _ C); [lra | | reflexivity | exact HC | reflexivity];
           first [now left | right; now rewrite Rabs_pos_eq in HF by lra]).
  1,2: split; [apply rnd_pos; lra |]; unfold m'; rewrite <- (rnd_same v), <- (rnd_same m) at 1;
       split; [rewrite <- (rnd_same m) at 1; apply rnd_le; rewrite ?rnd_same; lra | apply rnd_le; rewrite ?rnd_same; lra].
  all: assert (0 <= rnd (- D / C) <= b2r m - b2r v) as Q.
  1,3: unfold D; rewrite <- rnd_opp; replace (- (b2r v - b2r m)) with (b2r m - b2r v) by ring;
       apply (step_q (b2r m - b2r v) (rnd (b2r m - b2r v)) _ C); [lra | | reflexivity | exact HC | reflexivity].
  1: left; replace (b2r m - b2r v) with (- (b2r v - b2r m)) by ring; now apply generic_format_opp.
  1: right; rewrite Rabs_left1 in HF by lra; replace (b2r m - b2r v) with (- (b2r v - b2r m)) by ring; exact HF.
  all: replace (- D / C) with (- (D / C)) in Q by (unfold Rdiv; ring); rewrite rnd_opp in Q;
       split; [apply rnd_neg; lra |]; unfold m';
       split; [rewrite <- (rnd_same v); apply rnd_le; lra | rewrite <- (rnd_same m) at 2; apply rnd_le; lra].
Qed.

(** ** The group *)
Section G.
  Variables (tbl : list Z) (lit : Z -> Z -> binary32) (lg lgam lgam_nu : binary32 -> binary32)
    (lfact : Z -> binary32) (sq : binary32 -> binary32) (pw : binary32 -> binary32 -> binary32).
  Hypothesis lit0 : lit 0 1 = float_of_int 0.
  Hypothesis lit1 : lit 1 1 = float_of_int 1.
  Definition N32 : Num binary32 := NumB tbl lit lg lgam lgam_nu lfact sq pw.
  #[local] Hint Extern 0 (Num binary32) => exact N32 : typeclass_instances.
  Notation grp := (nich_group binary32).

  Definition inv (g : grp) : Prop := (0 <= ni_count g < 2147483648)%Z /\
    (fin (ni_mean g) = true -> fin (ni_ctv g) = true ->
     0 <= b2r (ni_ctv g) /\ (ni_count g = 0%Z -> b2r (ni_mean g) = 0)).

  Lemma inv_init sh : inv (nich_init sh).
  Proof.
    unfold nich_init. cbn [nlit N32 NumB]. rewrite lit0. split; cbn [ni_count ni_mean ni_ctv]; [lia |].
    intros _ _. rewrite (proj1 zero_val). split; [lra | reflexivity].
  Qed.

  (** the mean after an addition, whatever the rounding *)
  Lemma add_mean (m v : binary32) (n : Z) : (0 <= n)%Z -> (n + 1 < 2147483648)%Z -> (n = 0%Z -> b2r m = 0) ->
    let delta := b32_minus mode_NE v m in let m' := b32_plus mode_NE m (b32_div mode_NE delta (float_of_int (n + 1))) in
    fin m' = true -> fin m = true /\ fin v = true /\ fin delta = true /\
    b2r delta = rnd (b2r v - b2r m) /\
    b2r m' = rnd (b2r m + rnd (b2r delta / b2r (float_of_int (n + 1)))) /\
    (n = 0%Z -> b2r m' = b2r v) /\
    (b2r m <= b2r v -> 0 <= b2r delta /\ b2r m <= b2r m' <= b2r v) /\ (b2r v <= b2r m -> b2r delta <= 0 /\ b2r v <= b2r m' <= b2r m).
  Proof.
    intros Hn Hn' H0 delta m' F'. unfold m' in F'. destruct (plus_fin _ _ F') as (Fm & Fd & E').
    destruct (int_rnd (n + 1) ltac:(lia)) as [EC FC]. destruct (div_fin _ _ Fd FC) as (Fdel & _ & Ed).
    destruct (minus_fin _ _ Fdel) as (Fv & _ & Edel). fold delta in Ed, Edel, Fdel.
    rewrite Ed in E'. fold m' in E'.
    assert (EN : n = 0%Z -> b2r m' = b2r v).
    { intros ->. rewrite (H0 eq_refl) in *. rewrite E', Edel. replace (b2r v - 0) with (b2r v) by ring.
      destruct (int_ok (0 + 1) eq_refl) as [-> _]. rewrite !rnd_same.
      replace (b2r v / IZR (0 + 1)) with (b2r v) by (cbn; field). rewrite rnd_same, Rplus_0_l. apply rnd_same. }
    split; [exact Fm |]. split; [exact Fv |]. split; [exact Fdel |]. split; [exact Edel |]. split; [exact E' |]. split; [exact EN |].
    destruct (Z.eq_dec n 0) as [-> | Hne].
    - specialize (EN eq_refl). specialize (H0 eq_refl). rewrite Edel, EN, H0. split; intros H.
      + split; [apply rnd_pos; lra | lra].
      + split; [apply rnd_neg; lra | lra].
    - assert (2 <= b2r (float_of_int (n + 1))) as HC by (apply (int_ge (n + 1) 2); lia).
      pose proof (mean_between v m _ HC) as B. cbv zeta in B. rewrite E', Edel. exact B.
  Qed.

  Lemma inv_add dl sh g v g' : inv g -> nich_add dl sh g v = Ok g' -> inv g'.
  Proof.
    intros [Hc HI] H. unfold nich_add in H. destruct (i32 (ni_count g + 1)) as [c| |] eqn:Ec; try discriminate.
    apply i32_ok in Ec as Ec'. subst c. cbn [obind] in H. injection H as <-.
    cbn [nadd nsub nmul ndiv nof N32 NumB].
    assert (Hc' : (ni_count g + 1 < 2147483648)%Z).
    { apply (i32_lt _ _ Ec). }
    split; cbn [ni_count ni_mean ni_ctv]; [lia |]. intros Fm' Ft'.
    destruct (plus_fin _ _ Ft') as (Ft & Fp & Et). destruct (mult_fin _ _ Fp) as (Fdel & Fe & Ep).
    destruct (minus_fin _ _ Fe) as (_ & _ & Ee).
    assert (fin (ni_mean g) = true) as Fm by (destruct (plus_fin _ _ Fm') as (X & _); exact X).
    destruct (HI Fm Ft) as [T0 M0].
    destruct (add_mean (ni_mean g) v (ni_count g) (proj1 Hc) Hc' M0 Fm') as (_ & _ & _ & Edel & Em & _ & P1 & P2).
    split; [| lia]. rewrite Et, Ep, Ee. apply rnd_pos. apply Rplus_le_le_0_compat; [exact T0 |]. apply rnd_pos.
    destruct (Rle_or_lt (b2r (ni_mean g)) (b2r v)) as [L | L].
    - destruct (P1 L) as [D1 D2]. apply Rmult_le_pos; [exact D1 |]. apply rnd_pos. lra.
    - destruct (P2 (Rlt_le _ _ L)) as [D1 D2].
      match goal with |- 0 <= ?a * rnd ?b => assert (rnd b <= 0) by (apply rnd_neg; lra); nra end.
  Qed.

  Lemma inv_merge dl sh g h g' : inv g -> inv h -> nich_merge dl sh g h = Ok g' -> inv g'.
  Proof.
    intros [Hc HI] [Hd HJ] H. unfold nich_merge in H.
    destruct (i32 (ni_count g + ni_count h)) as [c| |] eqn:Ec; try discriminate.
    apply i32_ok in Ec as Ec'. subst c. cbn [obind] in H. injection H as <-.
    unfold sqr. cbn [nadd nsub nmul ndiv nof N32 NumB].
    assert (Hc' : (ni_count g + ni_count h < 2147483648)%Z).
    { apply (i32_lt _ _ Ec). }
    split; cbn [ni_count ni_mean ni_ctv]; [lia |]. intros Fm' Ft'.
    destruct (plus_fin _ _ Fm') as (Fm & Fsd & _). destruct (mult_fin _ _ Fsd) as (Fs & _ & _).
    destruct (int_rnd (ni_count g + ni_count h) ltac:(lia)) as [EC FC].
    destruct (div_fin _ _ Fs FC) as (_ & NZ & Es).
    assert (ni_count g + ni_count h <> 0)%Z as NZ'.
    { intros X. apply NZ. rewrite X. apply zero_val. }
    destruct (plus_fin _ _ Ft') as (Ft & F2 & Et). destruct (plus_fin _ _ F2) as (Fht & Fcr & E2).
    destruct (mult_fin _ _ Fcr) as (Fx & Fdd & Ecr). destruct (mult_fin _ _ Fdd) as (Fdel & _ & Edd).
    destruct (mult_fin _ _ Fx) as (_ & _ & Ex). destruct (minus_fin _ _ Fdel) as (Fhm & _ & _).
    destruct (HI Fm Ft) as [T0 _]. destruct (HJ Fhm Fht) as [U0 _].
    split; [| intros; lia].
    assert (forall n, (0 <= n < 2147483648)%Z -> 0 <= b2r (float_of_int n)) as P
      by (intros n Hn; apply (int_ge n 0); lia).
    rewrite Et, E2, Ecr, Edd, Ex, Es.
    apply rnd_pos. apply Rplus_le_le_0_compat; [exact T0 |]. apply rnd_pos. apply Rplus_le_le_0_compat; [exact U0 |].
    apply rnd_pos. apply Rmult_le_pos; apply rnd_pos; [| apply Rle_0_sqr].
    apply Rmult_le_pos; [now apply P |]. apply rnd_pos.
    pose proof (P _ Hd). pose proof (P (ni_count g + ni_count h)%Z ltac:(lia)).
    apply Rle_mult_inv_pos; lra.
  Qed.

  (** histories of additions and merges *)
  Lemma grows_go : forall (V : Type) (l : list (hop V)),
    (fix all (l : list (hop V)) := match l with [] => True | o :: t => hop_grows o /\ all t end) l = only_grows l.
  Proof. intros V l. induction l as [|o l IH]; cbn; [reflexivity|]. now rewrite IH. Qed.

  Lemma inv_runs dl sh : forall l,
    List.Forall (fun o => forall g g', hop_grows o -> inv g -> hrun1 (NICH binary32) dl sh g o = Ok g' -> inv g') l ->
    forall g g', only_grows l -> inv g -> hruns (NICH binary32) dl sh g l = Ok g' -> inv g'.
  Proof.
    induction l as [|o l IH]; intros HF g g' HG HI H; cbn [hruns] in H; [injection H as <-; exact HI |].
    destruct HG as [G1 G2]. inversion HF as [|? ? F1 F2]; subst.
    destruct (hrun1 (NICH binary32) dl sh g o) as [g1| |] eqn:E; try discriminate. cbn [obind] in H.
    exact (IH F2 g1 g' G2 (F1 g g1 G1 HI E) H).
  Qed.
  Lemma inv_1 dl sh : forall (o : hop binary32) g g', hop_grows o -> inv g -> hrun1 (NICH binary32) dl sh g o = Ok g' -> inv g'.
  Proof.
    induction o as [v|v|v n|l IH] using hop_ind'; intros g g' HG HI H; try contradiction HG.
    - exact (inv_add dl sh g v g' HI H).
    - cbn [hop_grows] in HG. rewrite grows_go in HG. cbn [hrun1] in H.
      rewrite (hruns_go (NICH binary32) dl sh l) in H.
      destruct (hruns (NICH binary32) dl sh (c_init (NICH binary32) sh) l) as [h| |] eqn:E; try discriminate. cbn [obind] in H.
      exact (inv_merge dl sh g h g' HI (inv_runs dl sh l IH _ h HG (inv_init sh) E) H).
  Qed.
  Lemma inv_hrun dl sh l g : only_grows l -> hrun (NICH binary32) dl sh l = Ok g -> inv g.
  Proof.
    intros HG H. apply (inv_runs dl sh l) with (g := nich_init sh); [| exact HG | apply inv_init | exact H].
    clear - lit0. induction l as [|o l IH]; [constructor |]. constructor; [intros g g'; apply inv_1 | exact IH].
  Qed.
End G.
