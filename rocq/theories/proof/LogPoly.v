(** Dyadic polynomials that enclose ln and the log-gamma function on an octave. *)
From Coq Require Import List Reals Lra Lia ZArith Bool.
From Coquelicot Require Import Coquelicot.
From Flocq Require Import Core.
From Verif.spec Require Import DrawSpec.
From Verif.proof Require Import GammaFunction LgammaBound PolyCheck.
Import ListNotations.
Local Open Scope R_scope.

(** Taylor's polynomial of ln (1 + w/6), rounded to multiples of 2^-60 *)
Definition q : dp := ([0; 192153584101141163; -16012798675095097; 1779199852788344; -222399981598543; 29653330879806; -4118518177751; 588359739679; -85802462036; 12711475857; -1906721379; 288897179; -44137069; 6790318; -1050883; 163471; -25542]%Z, (-60)%Z).
Definition six_w : dp := ([6; 1]%Z, 0%Z).
Definition q_res : dp := dsub (dmul six_w (pder (fst q), snd q)) (dc 1 0).
Lemma dv_six w : dv six_w w = 6 + w.
Proof. unfold dv, six_w. cbn [fst snd peval bpow]. ring. Qed.
Lemma dv_der d w : is_derive (dv d) w (dv (pder (fst d), snd d) w).
Proof.
  unfold dv. cbn [fst snd]. apply (is_derive_ext (fun w => bpow radix2 (snd d) * peval (fst d) w)); [intros; apply Rmult_comm |].
  rewrite Rmult_comm. apply (is_derive_scal (peval (fst d)) w (bpow radix2 (snd d)) (peval (pder (fst d)) w)). apply peval_der.
Qed.
Lemma q_res_small w : -2 <= w <= 2 -> Rabs (dv q_res w) <= bpow radix2 (-25).
Proof.
  intros Hw.
  pose proof (dnonneg_ok (-2) 2 (dsub (dc 1 (-25)) q_res) w ltac:(vm_compute; reflexivity) ltac:(lia) Hw) as A.
  pose proof (dnonneg_ok (-2) 2 (dadd (dc 1 (-25)) q_res) w ltac:(vm_compute; reflexivity) ltac:(lia) Hw) as B.
  rewrite dv_sub, dv_c in A. rewrite dv_add, dv_c in B. apply Rabs_le. lra.
Qed.
Lemma dv_q0 : dv q 0 = 0.
Proof. unfold dv, q. cbn [fst snd peval]. rewrite Rmult_0_l, Rplus_0_r. apply Rmult_0_l. Qed.
Lemma q_scale : snd q = (-60)%Z.
Proof. reflexivity. Qed.
Global Opaque q.
(** derivative bounded, equal at 0 *)
Lemma mvt_zero (f d : R -> R) a b M : a <= 0 <= b -> (forall w, a <= w <= b -> is_derive f w (d w)) -> (forall w, a <= w <= b -> Rabs (d w) <= M) ->
  f 0 = 0 -> forall w, a <= w <= b -> Rabs (f w) <= M * Rabs w.
Proof.
  intros H0 Hd HM F0 w Hw.
  destruct (MVT_gen f 0 w d) as (c & Hc & E).
  - intros z Hz. apply Hd. unfold Rmin, Rmax in Hz. destruct (Rle_dec 0 w); lra.
  - intros z Hz. apply continuity_pt_filterlim. apply (ex_derive_continuous f). exists (d z). apply Hd.
    unfold Rmin, Rmax in Hz. destruct (Rle_dec 0 w); lra.
  - rewrite F0, !Rminus_0_r in E. rewrite E, Rabs_mult. apply Rmult_le_compat_r; [apply Rabs_pos |]. apply HM.
    unfold Rmin, Rmax in Hc. destruct (Rle_dec 0 w); lra.
Qed.
Lemma ln_q w : -2 <= w <= 2 -> Rabs (ln (1 + w / 6) - dv q w) <= bpow radix2 (-26).
Proof.
  intros Hw. replace (bpow radix2 (-26)) with (bpow radix2 (-27) * 2) by (cbn; lra).
  apply Rle_trans with (bpow radix2 (-27) * Rabs w).
  - refine (mvt_zero (fun w => ln (1 + w / 6) - dv q w) (fun w => - (dv q_res w / (6 + w))) (-2) 2 _ _ _ _ _ w Hw); [lra | | |].
    + intros z Hz. unfold q_res. rewrite dv_sub, dv_mul, dv_six, dv_c.
      pose proof (dv_der q z) as D. set (d := dv (pder (fst q), snd q) z) in *.
      assert (is_derive (fun w => ln (1 + w / 6)) z (/ (6 + z))) as D1.
      { auto_derive; [lra |]. field. lra. }
      pose proof (is_derive_minus (fun w => ln (1 + w / 6)) (dv q) z _ _ D1 D) as D2.
      assert (- (((6 + z) * d - 1 * bpow radix2 0) / (6 + z)) = / (6 + z) - d) as E by (change (bpow radix2 0) with 1; field; lra).
      rewrite E. exact D2.
    + intros z Hz. rewrite Rabs_Ropp. unfold Rdiv. rewrite Rabs_mult, Rabs_inv, (Rabs_right (6 + z)) by lra.
      pose proof (q_res_small z Hz) as S. apply Rle_trans with (bpow radix2 (-25) * / 4).
      * apply Rmult_le_compat; [apply Rabs_pos | left; apply Rinv_0_lt_compat; lra | exact S | apply Rinv_le_contravar; lra].
      * cbn. lra.
    + replace (1 + 0 / 6) with 1 by field. rewrite ln_1, dv_q0. ring.
  - apply Rmult_le_compat_l; [apply bpow_ge_0 |]. apply Rabs_le. lra.
Qed.

Fixpoint pevalZ (p : list Z) (n : Z) : Z := match p with [] => 0 | a :: t => a + n * pevalZ t n end%Z.
Lemma peval_IZR p n : peval p (IZR n) = IZR (pevalZ p n).
Proof. induction p as [|a p IH]; [reflexivity |]. cbn [peval pevalZ]. rewrite IH, plus_IZR, mult_IZR. reflexivity. Qed.
Notation ulp := (bpow radix2 (-26)).
(** ln 2, ln (3/2) and ln 6 in units of 2^-60 *)
Definition Z2 : Z := (pevalZ (fst q) 2 - pevalZ (fst q) (-2))%Z.
Definition Z32 : Z := (- pevalZ (fst q) (-2))%Z.
Definition Z6 : Z := (2 * Z2 + Z32)%Z.
Lemma ln_32_enc : Rabs (ln (3 / 2) - IZR Z32 * bpow radix2 (-60)) <= ulp.
Proof.
  pose proof (ln_q (-2) ltac:(lra)) as H. unfold dv in H. rewrite q_scale, peval_IZR in H.
  replace (1 + -2 / 6) with (/ (3 / 2)) in H by field. rewrite ln_Rinv in H by lra.
  unfold Z32. rewrite opp_IZR.
  match goal with H : Rabs ?a <= _ |- Rabs ?b <= _ => replace b with (- a) by ring end. now rewrite Rabs_Ropp.
Qed.
Lemma ln_2_enc : Rabs (ln 2 - IZR Z2 * bpow radix2 (-60)) <= 2 * ulp.
Proof.
  pose proof (ln_q 2 ltac:(lra)) as H. pose proof (ln_q (-2) ltac:(lra)) as H'. unfold dv in H, H'. rewrite q_scale, peval_IZR in H, H'.
  replace (1 + -2 / 6) with (2 / 3) in H' by field. replace (1 + 2 / 6) with (2 * (2 / 3)) in H by field.
  rewrite ln_mult in H by lra. unfold Z2. rewrite minus_IZR.
  apply Rabs_le_between in H. apply Rabs_le_between in H'. apply Rabs_le. lra.
Qed.
Lemma ln_6_enc : Rabs (ln 6 - IZR Z6 * bpow radix2 (-60)) <= 5 * ulp.
Proof.
  pose proof ln_2_enc as A. pose proof ln_32_enc as B. replace 6 with (2 * 2 * (3 / 2)) by field. rewrite !ln_mult by lra.
  unfold Z6. rewrite plus_IZR, mult_IZR. apply Rabs_le_between in A. apply Rabs_le_between in B. apply Rabs_le. lra.
Qed.
(** ln x for x = 2^k (6 + w) *)
Definition err (k : Z) : Z := (2 * Z.abs k + 6)%Z.
Definition lnx (k : Z) : dp := dadd (dc (k * Z2 + Z6) (-60)) q.
Lemma ln_bpow k : ln (bpow radix2 k) = IZR k * ln 2.
Proof. rewrite bpow_powerRZ. change (IZR radix2) with 2. rewrite powerRZ_Rpower by lra. unfold Rpower. now rewrite ln_exp. Qed.
Lemma lnx_enc k w : -2 <= w <= 2 -> Rabs (ln (bpow radix2 k * (6 + w)) - dv (lnx k) w) <= IZR (err k) * ulp.
Proof.
  intros Hw. pose proof (ln_q w Hw) as A. pose proof ln_2_enc as B. pose proof ln_6_enc as C.
  rewrite ln_mult by (try apply bpow_gt_0; lra). rewrite ln_bpow. replace (6 + w) with (6 * (1 + w / 6)) by field. rewrite ln_mult by lra.
  unfold lnx. rewrite dv_add, dv_c, plus_IZR, mult_IZR. unfold err. rewrite plus_IZR, mult_IZR, abs_IZR.
  replace (IZR k * ln 2 + (ln 6 + ln (1 + w / 6)) - ((IZR k * IZR Z2 + IZR Z6) * bpow radix2 (-60) + dv q w))
    with (IZR k * (ln 2 - IZR Z2 * bpow radix2 (-60)) + ((ln 6 - IZR Z6 * bpow radix2 (-60)) + (ln (1 + w / 6) - dv q w))) by ring.
  eapply Rle_trans; [apply Rabs_triang |]. rewrite Rabs_mult.
  assert (Rabs (IZR k) * Rabs (ln 2 - IZR Z2 * bpow radix2 (-60)) <= Rabs (IZR k) * (2 * ulp)) by (apply Rmult_le_compat_l; [apply Rabs_pos | exact B]).
  pose proof (Rabs_triang (ln 6 - IZR Z6 * bpow radix2 (-60)) (ln (1 + w / 6) - dv q w)). lra.
Qed.

Global Opaque Z2 Z6.
Definition X (k : Z) : dp := dmul (dc 1 k) six_w.
Lemma dv_X k w : dv (X k) w = bpow radix2 k * (6 + w).
Proof. unfold X. rewrite dv_mul, dv_c, dv_six. ring. Qed.
Ltac dvs := repeat (rewrite dv_add || rewrite dv_sub || rewrite dv_mul || rewrite dv_pow || rewrite dv_c || rewrite dv_X).
Section Lgamma.
  Variable lg : R -> R.
  Hypothesis HG : is_log_gamma lg.
  Definition L_lo : dp := dsub (dc (Z6 - 7 * Z2) (-60)) (dsub (dc 23970051588137611 (-60)) (dsub (dc 4 0) (dc 19 (-26)))).
  Definition L_hi : dp := dsub (dc (Z6 - 7 * Z2) (-60)) (dsub (dc 23970009701980361 (-60)) (dadd (dc 4 0) (dc 19 (-26)))).
  Lemma g4_enc : Rabs (g lg 4 - (IZR (Z6 - 7 * Z2) * bpow radix2 (-60) + 4)) <= 19 * ulp.
  Proof using HG.
    unfold g. assert (lg 4 = ln 6) as E.
    { replace 4 with (1 + 1 + 1 + 1) by ring. rewrite !(lg_rec lg HG), (lg_1 lg HG), ln_1 by lra.
      replace 6 with ((1 + 1 + 1) * (1 + 1)) by ring. rewrite ln_mult by lra. ring. }
    rewrite E. replace (ln 4) with (2 * ln 2) by (replace 4 with (2 * 2) by ring; rewrite ln_mult by lra; ring).
    pose proof ln_2_enc as A. pose proof ln_6_enc as B. rewrite minus_IZR, mult_IZR.
    apply Rabs_le_between in A. apply Rabs_le_between in B. apply Rabs_le. lra.
  Qed.
  Lemma L_enc x w : 0 < x -> dv L_lo w + T_lo x <= g lg x <= dv L_hi w + T_hi x.
  Proof using HG.
    intros Hx. pose proof (stirling lg HG x 4 Hx ltac:(lra)) as A. pose proof (stirling lg HG 4 x ltac:(lra) Hx) as B.
    pose proof g4_enc as C. apply Rabs_le_between in C. unfold L_lo, L_hi. rewrite !dv_sub, !dv_add, !dv_c.
    assert (T_hi 4 <= 23970051588137611 * bpow radix2 (-60)) by (unfold T_hi; cbn; lra).
    assert (23970009701980361 * bpow radix2 (-60) <= T_lo 4) by (unfold T_lo, T_hi; cbn; lra).
    change (bpow radix2 0) with 1. lra.
  Qed.

  Definition S (k : Z) (l Lc : dp) : dp := dadd (dmul (dsub (X k) (dc 1 (-1))) l) (dsub Lc (X k)).
  Definition low6 (k : Z) : dp :=
    dadd (dmul (dc 420 0) (dpow (X k) 6)) (dsub (dmul (dc 4 0) (dpow (X k) 2)) (dmul (dc 14 0) (dpow (X k) 4))).
  Definition X7 (k : Z) : dp := dmul (dc 5040 0) (dpow (X k) 7).
  Definition lg_lo (k : Z) : dp :=
    dadd (dmul (X7 k) (S k (dsub (lnx k) (dc (err k) (-26))) L_lo)) (dsub (low6 k) (dc 3 0)).
  Definition lg_hi (k : Z) : dp := dadd (dmul (X7 k) (S k (dadd (lnx k) (dc (err k) (-26))) L_hi)) (low6 k).
  Lemma lg_enc k w : -2 <= w <= 2 -> let x := bpow radix2 k * (6 + w) in 1 <= x ->
    dv (lg_lo k) w <= 5040 * x ^ 7 * lg x <= dv (lg_hi k) w.
  Proof using HG.
    intros Hw x Hx. pose proof (L_enc x w ltac:(lra)) as [A B]. unfold g in A, B.
    pose proof (lnx_enc k w Hw) as C. fold x in C. apply Rabs_le_between in C.
    assert (0 < x ^ 7) as P by (apply pow_lt; lra).
    unfold lg_lo, lg_hi, S, X7, low6. dvs. fold x.
    set (l := dv (lnx k) w) in *. set (E := IZR (err k) * ulp) in *. set (lo := dv L_lo w) in *. set (hi := dv L_hi w) in *.
    change (bpow radix2 0) with 1. rewrite !Rmult_1_r. replace (1 * bpow radix2 (-1)) with (/ 2) by (cbn; lra).
    assert ((x - / 2) * (l - E) <= (x - / 2) * ln x <= (x - / 2) * (l + E)) as [D1 D2] by (split; apply Rmult_le_compat_l; lra).
    split.
    - replace (5040 * x ^ 7 * ((x - / 2) * (l - E) + (lo - x)) + (420 * x ^ 6 + (4 * x ^ 2 - 14 * x ^ 4) - 3))
        with (5040 * x ^ 7 * ((x - / 2) * (l - E) + (lo - x) + T_lo x)) by (unfold T_lo, T_hi; field; lra).
      apply Rmult_le_compat_l; [lra |]. lra.
    - replace (5040 * x ^ 7 * ((x - / 2) * (l + E) + (hi - x)) + (420 * x ^ 6 + (4 * x ^ 2 - 14 * x ^ 4)))
        with (5040 * x ^ 7 * ((x - / 2) * (l + E) + (hi - x) + T_hi x)) by (unfold T_hi; field; lra).
      apply Rmult_le_compat_l; [lra |]. lra.
  Qed.
End Lgamma.
