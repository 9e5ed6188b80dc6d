(** fast_log keeps the order of its arguments, if log2 does. *)
From Coq Require Import List Reals Lra Lia ZArith Bool.
From Flocq Require Import Core BinarySingleNaN Binary Bits.
From Verif.model Require Import Base FastExp FloatNum FastLog Special.
From Verif.spec Require Import SpecialSpec LogSpec.
From Verif.proof Require Import LnBounds SpecialProof FastExpProof FloatScoresProof FloatNichProof FastLogProof.
Import ListNotations.
Local Open Scope R_scope.

Lemma log_form log2 x : good_log2 log2 -> fin x = true -> bpow radix2 (-126) <= b2r x ->
  let k := (bits_of_b32 x / 8388608)%Z in let i := (bits_of_b32 x mod 8388608 / 512)%Z in
  b2r (fast_log32 log2 x) = rnd (rnd (IZR (k - 127) + b2r (log2 (fastlog_arg 14 (Z.to_nat i)))) * ln2_float).
Proof.
  intros HL F L. destruct (normal_bits x F L) as [PN V]. cbv zeta. unfold fast_log32, fast_log_run. destruct (table32 log2) as (t & -> & Ht). cbn [obind].
  unfold fastlog32. set (b := bits_of_b32 x) in *. pose proof (normal_pattern b PN) as Pb.
  unfold fastlog_exp. rewrite field_exp, field_man by (assumption || lia). change (2 ^ (23 - 14))%Z with 512%Z.
  destruct (split_log b PN) as [Ee _]. rewrite Ee. clear V. pose proof (man_small b) as Hm.
  change (2 ^ 23)%Z with 8388608%Z. set (man := (b mod 8388608 / 512)%Z) in *. rewrite Ht by exact Hm. cbn [obind or_nan].
  destruct (arg_val (Z.to_nat man) ltac:(lia)) as [Va Fa].
  assert (INR (Z.to_nat man) = IZR man) as Im by (rewrite INR_IZR_INZ, Z2Nat.id by lia; reflexivity). rewrite Im in Va.
  assert (0 <= IZR man < 16384) as Rm by (split; [apply IZR_le; lia | apply (IZR_lt man 16384); lia]).
  destruct (HL (fastlog_arg 14 (Z.to_nat man)) Fa ltac:(rewrite Va; lra)) as [Ft At]. rewrite Va in At.
  change (ln (1 + IZR man / 16384) / ln 2) with (log2t 14 man) in At. pose proof (log2t_range man Hm) as Rt.
  set (T := log2 (fastlog_arg 14 (Z.to_nat man))) in *. clearbody T.
  replace (b / 8388608 - 127 + 127 - 127)%Z with (b / 8388608 - 127)%Z by lia. set (e := (b / 8388608 - 127)%Z) in *.
  assert (-126 <= e <= 127)%Z as Re.
  { unfold e. destruct PN. assert (1 <= b / 8388608)%Z by (apply Z.div_le_lower_bound; lia). assert (b / 8388608 < 255)%Z by (apply Z.div_lt_upper_bound; lia). lia. }
  assert (-126 <= IZR e <= 127) as Re' by (split; [apply (IZR_le (-126)); lia | apply (IZR_le e 127); lia]).
  destruct (int_ok e ltac:(lia)) as [Ve Fe]. apply Rabs_le_inv in At.
  destruct (plus_ok (float_of_int e) T Fe Ft) as [Vs Fs].
  { rewrite Ve. apply small127. apply Rabs_le. lra. }
  rewrite Ve in Vs. destruct ln2_val as [Vl Fl].
  pose proof (rnd_err (IZR e + b2r T)) as R1. rewrite <- Vs in R1. pose proof eta32_pos. unfold u24 in R1.
  assert (Rabs (IZR e + b2r T) <= 129) as A1 by (apply Rabs_le; lra).
  set (s := b32_plus mode_NE (float_of_int e) T) in *. clearbody s. rewrite <- Vs.
  assert (Rabs (b2r s) <= 130) as A2.
  { replace (b2r s) with ((b2r s - (IZR e + b2r T)) + (IZR e + b2r T)) by ring. eapply Rle_trans; [apply Rabs_triang | lra]. }
  destruct (mult_ok s b_ln2 Fs Fl) as [Vr Fr]; [| now rewrite Vr, Vl].
  rewrite Vl, Rabs_mult. apply Rle_trans with (130 * 1); [| rewrite Rmult_1_r; apply Rle_trans with (bpow radix2 8); [change (bpow radix2 8) with 256; lra | apply bpow_le; lia]].
  apply Rmult_le_compat; try apply Rabs_pos; [exact A2 |]. unfold ln2_float. rewrite Rabs_pos_eq; lra.
Qed.

Lemma bits_order x y : fin x = true -> fin y = true -> bpow radix2 (-126) <= b2r x -> bpow radix2 (-126) <= b2r y -> b2r x <= b2r y ->
  let kx := (bits_of_b32 x / 8388608)%Z in let ky := (bits_of_b32 y / 8388608)%Z in
  (kx < ky)%Z \/ kx = ky /\ (bits_of_b32 x mod 8388608 <= bits_of_b32 y mod 8388608)%Z.
Proof.
  intros Fx Fy Lx Ly H. cbv zeta. destruct (normal_bits x Fx Lx) as [_ Vx]. destruct (normal_bits y Fy Ly) as [_ Vy].
  rewrite <- Vx, <- Vy in H. unfold normal_value in H.
  pose proof (Z.mod_pos_bound (bits_of_b32 x) 8388608 ltac:(lia)) as Mx. pose proof (Z.mod_pos_bound (bits_of_b32 y) 8388608 ltac:(lia)) as My.
  set (mx := (bits_of_b32 x mod 8388608)%Z) in *. set (my := (bits_of_b32 y mod 8388608)%Z) in *.
  set (kx := (bits_of_b32 x / 8388608)%Z) in *. set (ky := (bits_of_b32 y / 8388608)%Z) in *.
  assert (0 <= IZR mx / 8388608 < 1) as Hx by (assert (0 <= IZR mx < 8388608) by (split; [apply IZR_le | apply IZR_lt]; lia); lra).
  assert (0 <= IZR my / 8388608 < 1) as Hy by (assert (0 <= IZR my < 8388608) by (split; [apply IZR_le | apply IZR_lt]; lia); lra).
  change 2 with (IZR radix2) in H. rewrite <- !bpow_powerRZ in H.
  pose proof (bpow_gt_0 radix2 (kx - 127)) as Px. pose proof (bpow_gt_0 radix2 (ky - 127)) as Py.
  destruct (Z.lt_trichotomy kx ky) as [E | [E | E]]; [now left | right | exfalso].
  - split; [exact E |]. rewrite E in H. apply Rmult_le_reg_r in H; [| exact Py]. apply le_IZR. lra.
  - assert (2 * bpow radix2 (ky - 127) <= bpow radix2 (kx - 127)) as B.
    { replace (2 * bpow radix2 (ky - 127)) with (bpow radix2 (1 + (ky - 127))) by (rewrite bpow_plus; reflexivity). apply bpow_le. lia. }
    assert ((1 + IZR my / 8388608) * bpow radix2 (ky - 127) < 2 * bpow radix2 (ky - 127)) by (apply Rmult_lt_compat_r; lra).
    assert (1 * bpow radix2 (kx - 127) <= (1 + IZR mx / 8388608) * bpow radix2 (kx - 127)) by (apply Rmult_le_compat_r; lra). lra.
Qed.

Lemma log_mono log2 x y : good_log2 log2 ->
  (forall a b, fin a = true -> fin b = true -> 1 <= b2r a <= b2r b -> b2r b < 2 -> b2r (log2 a) <= b2r (log2 b)) ->
  (forall a, fin a = true -> 1 <= b2r a < 2 -> 0 <= b2r (log2 a) <= 1) ->
  fin x = true -> fin y = true -> bpow radix2 (-126) <= b2r x <= b2r y -> b2r (fast_log32 log2 x) <= b2r (fast_log32 log2 y).
Proof.
  intros G Mo Un Fx Fy [Lx H]. assert (bpow radix2 (-126) <= b2r y) as Ly by lra.
  rewrite (log_form log2 x G Fx Lx), (log_form log2 y G Fy Ly). apply rnd_le. apply Rmult_le_compat_r; [unfold ln2_float; lra |]. apply rnd_le.
  pose proof (man_small (bits_of_b32 x)) as Ix. pose proof (man_small (bits_of_b32 y)) as Iy.
  set (ix := (bits_of_b32 x mod 8388608 / 512)%Z) in *. set (iy := (bits_of_b32 y mod 8388608 / 512)%Z) in *.
  destruct (arg_val (Z.to_nat ix) ltac:(lia)) as [Ax Gx]. destruct (arg_val (Z.to_nat iy) ltac:(lia)) as [Ay Gy].
  assert (INR (Z.to_nat ix) = IZR ix) as Ex by (rewrite INR_IZR_INZ, Z2Nat.id by lia; reflexivity). rewrite Ex in Ax.
  assert (INR (Z.to_nat iy) = IZR iy) as Ey by (rewrite INR_IZR_INZ, Z2Nat.id by lia; reflexivity). rewrite Ey in Ay.
  assert (0 <= IZR ix < 16384) as Rx by (split; [apply IZR_le; lia | apply (IZR_lt ix 16384); lia]).
  assert (0 <= IZR iy < 16384) as Ry by (split; [apply IZR_le; lia | apply (IZR_lt iy 16384); lia]).
  destruct (bits_order x y Fx Fy Lx Ly H) as [K | [K M]].
  - pose proof (Un _ Gx ltac:(rewrite Ax; lra)). pose proof (Un _ Gy ltac:(rewrite Ay; lra)).
    assert (IZR (bits_of_b32 x / 8388608 - 127) + 1 <= IZR (bits_of_b32 y / 8388608 - 127)) by (rewrite <- plus_IZR; apply IZR_le; lia). lra.
  - rewrite K. apply Rplus_le_compat_l. apply Mo; try assumption; [rewrite Ax, Ay | rewrite Ay; lra].
    assert (ix <= iy)%Z as I by (apply Z.div_le_mono; lia). apply IZR_le in I. lra.
Qed.

(** The witness of FastLogProof.v is such a log2. *)
Lemma witness_val x : 1 <= b2r x < 2 -> b2r (log2_witness x) = IZR (Zfloor (ln (b2r x) / ln 2 * 16777216)) / 16777216 /\
  (0 <= Zfloor (ln (b2r x) / ln 2 * 16777216) < 16777216)%Z.
Proof.
  intros H. unfold log2_witness. fold (b2r x) in *. set (l := ln (b2r x) / ln 2). pose proof ln2_lo as Lo. pose proof ln2_hi as Hi.
  assert (0 <= l < 1) as L.
  { assert (0 <= ln (b2r x)) as A by (rewrite <- ln_1; destruct (Rle_lt_or_eq_dec 1 (b2r x) ltac:(lra)) as [Q | <-]; [left; apply ln_increasing; lra | lra]).
    assert (ln (b2r x) < ln 2) as B by (apply ln_increasing; lra).
    unfold l. split; [apply Rmult_le_pos; [exact A | left; apply Rinv_0_lt_compat; lra] |].
    apply Rmult_lt_reg_r with (ln 2); [lra |]. unfold Rdiv. rewrite Rmult_assoc, Rinv_l by lra. lra. }
  set (n := Zfloor (l * 16777216)). pose proof (Zfloor_lb (l * 16777216)) as Z1. pose proof (Zfloor_ub (l * 16777216)) as Z2. fold n in Z1, Z2.
  assert (0 <= n < 16777216)%Z as Hn.
  { split; [apply le_IZR | apply lt_IZR]; [| lra]. apply IZR_le. unfold n. apply Zfloor_lub. lra. }
  destruct (int_ok n ltac:(lia)) as [En Fn].
  assert (b2r (float_of_int 16777216) = 16777216) as Ed.
  { assert (B2FF 24 128 (float_of_int 16777216) = F754_finite false 8388608 1) as E by (vm_compute; reflexivity). rewrite <- FF2R_B2FF, E. cbn. unfold F2R. cbn. lra. }
  assert (IZR n / 16777216 = IZR n * bpow radix2 (-24)) as Eq by (change (bpow radix2 (-24)) with (/ 16777216); reflexivity).
  assert (0 <= IZR n <= 16777216) as Rn by (split; [apply (IZR_le 0) | apply (IZR_le _ 16777216)]; lia).
  destruct (div_ok (float_of_int n) (float_of_int 16777216) Fn ltac:(rewrite Ed; lra)) as [E3 F3].
  { rewrite En, Ed. apply small127. apply Rabs_le. lra. }
  split; [| exact Hn]. rewrite E3, En, Ed, Eq, small_format by lia. reflexivity.
Qed.
Lemma witness_mono a b : 1 <= b2r a <= b2r b -> b2r b < 2 -> b2r (log2_witness a) <= b2r (log2_witness b).
Proof.
  intros H B. destruct (witness_val a ltac:(lra)) as [-> _]. destruct (witness_val b ltac:(lra)) as [-> _].
  apply Rmult_le_compat_r; [lra |]. apply IZR_le, Zfloor_le. apply Rmult_le_compat_r; [lra |].
  pose proof ln2_lo. apply Rmult_le_compat_r; [left; apply Rinv_0_lt_compat; lra |].
  destruct (Rle_lt_or_eq_dec (b2r a) (b2r b) ltac:(lra)) as [Q | ->]; [left; apply ln_increasing; lra | lra].
Qed.
Lemma witness_unit a : 1 <= b2r a < 2 -> 0 <= b2r (log2_witness a) <= 1.
Proof.
  intros H. destruct (witness_val a H) as [-> [A B]]. apply IZR_le in A. apply IZR_lt in B. lra.
Qed.
Lemma log32_run log2 x r : fast_log_run log2 x = Ok r -> fast_log32 log2 x = r.
Proof. unfold fast_log32. now intros ->. Qed.
Lemma log_mono_run log2 x y r s : fast_log_run log2 x = Ok r -> fast_log_run log2 y = Ok s ->
  b2r (fast_log32 log2 x) <= b2r (fast_log32 log2 y) -> b2r r <= b2r s.
Proof. intros A B. rewrite (log32_run log2 x r A), (log32_run log2 y s B). exact (fun h => h). Qed.
