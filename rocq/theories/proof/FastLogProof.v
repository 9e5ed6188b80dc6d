(** fast_log in single precision. *)
From Coq Require Import List Reals Lra Lia ZArith Bool.
From Flocq Require Import Core BinarySingleNaN Binary Bits.
From Verif.model Require Import Base VectorMath FastExp Special FastLog.
From Verif.spec Require Import SpecialSpec LogSpec.
From Verif.proof Require Import BaseProof LoopProof VectorProof LnBounds SpecialProof FastExpProof FloatScoresProof FastLgammaProof.
Import ListNotations.
Local Open Scope R_scope.

Lemma normal_bits (x : binary32) : fin x = true -> bpow radix2 (-126) <= b2r x ->
  positive_normal (bits_of_b32 x) /\ normal_value (bits_of_b32 x) = b2r x.
Proof.
  intros F L. pose proof (bpow_gt_0 radix2 (-126)) as B0. destruct x as [s|s|s p H|s m e H]; try discriminate; [cbn in L; lra |].
  destruct s.
  { exfalso. assert (b2r (B754_finite 24 128 true m e H) < 0); [| lra]. cbn [B2R]. apply F2R_lt_0. reflexivity. }
  destruct (canon m e H) as (C1 & C2 & C3).
  assert (2 ^ 23 <= Z.pos m)%Z as C4.
  { apply Z.nlt_ge. intros S. pose proof (subnormal_small false m e H S) as Q. rewrite Rabs_pos_eq in Q by lra. lra. }
  assert (bits_of_b32 (B754_finite 24 128 false m e H) = (e + 150) * 8388608 + (Z.pos m - 8388608))%Z as E.
  { unfold bits_of_b32, bits_of_binary_float. change (Z.pow 2 23) with 8388608%Z in *.
    rewrite (proj2 (Z.leb_le 0 (Z.pos m - 8388608)) ltac:(lia)). unfold join_bits. rewrite Z.shiftl_mul_pow2 by lia. change (2 ^ 23)%Z with 8388608%Z.
    change (SpecFloat.emin (23 + 1) (2 ^ (8 - 1)))%Z with (-149)%Z. f_equal. lia. }
  rewrite E. change (2 ^ 23)%Z with 8388608%Z in *. change (2 ^ 24)%Z with 16777216%Z in *. split; [unfold positive_normal; lia |].
  unfold normal_value. rewrite Z.div_add_l, Z.div_small by lia.
  assert (((e + 150) * 8388608 + (Z.pos m - 8388608)) mod 8388608 = Z.pos m - 8388608)%Z as ->.
  { rewrite Z.add_comm, Z.mod_add by lia. apply Z.mod_small. lia. }
  replace (e + 150 + 0 - 127)%Z with (e + 23)%Z by lia. rewrite <- (bpow_powerRZ radix2). rewrite bpow_plus. change (bpow radix2 23) with 8388608.
  cbn [B2R cond_Zopp]. unfold F2R. cbn [Fnum Fexp]. rewrite minus_IZR. field.
Qed.

Lemma small_format m e : (Z.abs m < 16777216)%Z -> (-149 <= e)%Z -> rnd (IZR m * bpow radix2 e) = IZR m * bpow radix2 e.
Proof.
  intros H He. apply round_generic; [apply valid_rnd_N |]. change (SpecFloat.fexp 24 128) with (FLT_exp (-149) 24). apply generic_format_FLT.
  exists (Float radix2 m e); [reflexivity | cbn; lia | cbn; lia].
Qed.
Lemma small127 x : Rabs x <= 1000000000000 -> Rabs x <= bpow radix2 127.
Proof. pose proof bpow127. lra. Qed.
Lemma arg_val i : (Z.of_nat i < 16384)%Z -> b2r (fastlog_arg 14 i) = 1 + INR i / 16384 /\ fin (fastlog_arg 14 i) = true.
Proof.
  intros H. unfold fastlog_arg. set (n := Z.of_nat i). change (Z.shiftl 1 (23 - 14)) with 512%Z. change (Z.shiftl 1 23) with 8388608%Z.
  assert (0 <= n < 16384)%Z as Hn by lia. assert (0 <= IZR n < 16384) as Rn by (split; [apply IZR_le; lia | apply (IZR_lt n 16384); lia]).
  destruct (int_ok n ltac:(lia)) as [En Fn]. destruct (int_ok 512 ltac:(lia)) as [E5 F5]. destruct (int_ok 8388608 ltac:(lia)) as [E8 F8]. destruct (int_ok 1 ltac:(lia)) as [E1 F1].
  destruct (mult_ok (float_of_int n) (float_of_int 512) Fn F5) as [Em Fm].
  { rewrite En, E5. apply small127. rewrite Rabs_pos_eq; lra. }
  rewrite En, E5 in Em. replace (IZR n * 512) with (IZR n * bpow radix2 9) in Em by (cbn; lra). rewrite small_format in Em by lia. change (bpow radix2 9) with 512 in Em.
  destruct (div_ok (b32_mult mode_NE (float_of_int n) (float_of_int 512)) (float_of_int 8388608) Fm) as [Ed Fd].
  { rewrite E8. lra. }
  { rewrite Em, E8. apply small127. rewrite Rabs_pos_eq; lra. }
  rewrite Em, E8 in Ed. replace (IZR n * 512 / 8388608) with (IZR n * bpow radix2 (-14)) in Ed by (cbn; lra). rewrite small_format in Ed by lia.
  destruct (plus_ok (float_of_int 1) _ F1 Fd) as [Ep Fp].
  { rewrite E1, Ed. apply small127. change (bpow radix2 (-14)) with (/ 16384). rewrite Rabs_pos_eq; lra. }
  rewrite E1, Ed in Ep. split; [| exact Fp]. rewrite Ep.
  replace (1 + IZR n * bpow radix2 (-14)) with (IZR (16384 + n) * bpow radix2 (-14)) by (rewrite plus_IZR; cbn; lra).
  rewrite small_format by lia. rewrite plus_IZR, INR_IZR_INZ. fold n. change (bpow radix2 (-14)) with (/ 16384). lra.
Qed.

Lemma table32 log2 : exists t, fastlog_table32 log2 14 = Ok t /\
  forall i, (0 <= i < 16384)%Z -> Special.zget t i = Ok (log2 (fastlog_arg 14 (Z.to_nat i))).
Proof.
  unfold fastlog_table32. change (Z.shiftl 1 14) with 16384%Z. set (size := Z.to_nat 16384).
  destruct (vfor_upd (fun i table => vset table i (log2 (fastlog_arg 14 i))) (fun i _ => log2 (fastlog_arg 14 i)) size 0 (repeat (float_of_int 0) size)) as (t & Et & Lt & Nin & _).
  - rewrite repeat_length. lia.
  - intros i l' x Hi HL _ _. rewrite repeat_length in HL. unfold vset. destruct (Nat.ltb_spec i (length l')); [reflexivity | lia].
  - exists t. split; [exact Et |]. intros i Hi. unfold Special.zget. destruct (Z.ltb_spec i 0); [lia |].
    assert (Z.to_nat i < size)%nat as Hs by (unfold size; lia).
    unfold vget. rewrite (Nin (Z.to_nat i) (float_of_int 0)).
    + reflexivity.
    + lia.
    + rewrite (nth_error_nth' _ (float_of_int 0)) by (rewrite repeat_length; exact Hs). now rewrite nth_repeat.
Qed.

Lemma ln2_val : b2r b_ln2 = ln2_float /\ fin b_ln2 = true.
Proof.
  assert (B2FF 24 128 b_ln2 = F754_finite false 11629080 (-24)) as E by (vm_compute; reflexivity).
  split.
  - rewrite <- FF2R_B2FF, E. cbn. unfold F2R, ln2_float. cbn. change (Z.pow_pos 2 24) with 16777216%Z. lra.
  - rewrite <- is_finite_B2FF, E. reflexivity.
Qed.

Lemma log_run log2 x : good_log2 log2 -> fin x = true -> bpow radix2 (-126) <= b2r x ->
  exists r, fast_log_run log2 x = Ok r /\ fin r = true /\ -12 / 1000000 <= ln (b2r x) - b2r r <= / 16384 + 12 / 1000000.
Proof.
  intros HL F L. destruct (normal_bits x F L) as [PN V]. unfold fast_log_run. destruct (table32 log2) as (t & -> & Ht). cbn [obind].
  unfold fastlog32. set (b := bits_of_b32 x) in *. pose proof (normal_pattern b PN) as Pb.
  unfold fastlog_exp. rewrite field_exp, field_man by (assumption || lia). change (2 ^ (23 - 14))%Z with 512%Z.
  destruct (split_log b PN) as [Ee Sp]. rewrite Ee. rewrite V in Sp. pose proof (man_small b) as Hm.
  change (2 ^ 23)%Z with 8388608%Z.
  set (man := (b mod 8388608 / 512)%Z) in *. rewrite Ht by exact Hm. cbn [obind].
  destruct (arg_val (Z.to_nat man) ltac:(lia)) as [Va Fa].
  assert (INR (Z.to_nat man) = IZR man) as Im by (rewrite INR_IZR_INZ, Z2Nat.id by lia; reflexivity). rewrite Im in Va.
  assert (0 <= IZR man < 16384) as Rm by (split; [apply IZR_le; lia | apply (IZR_lt man 16384); lia]).
  destruct (HL (fastlog_arg 14 (Z.to_nat man)) Fa ltac:(rewrite Va; lra)) as [Ft At]. rewrite Va in At.
  change (ln (1 + IZR man / 16384) / ln 2) with (log2t 14 man) in At. pose proof (log2t_range man Hm) as Rt.
  set (l := log2t 14 man) in *. set (T := log2 (fastlog_arg 14 (Z.to_nat man))) in *.
  set (e := (b / 8388608 - 127)%Z) in *. replace (e + 127 - 127)%Z with e by lia.
  assert (-126 <= e <= 127)%Z as Re.
  { unfold e. destruct PN. assert (1 <= b / 8388608)%Z by (apply Z.div_le_lower_bound; lia). assert (b / 8388608 < 255)%Z by (apply Z.div_lt_upper_bound; lia). lia. }
  assert (-126 <= IZR e <= 127) as Re' by (split; [apply (IZR_le (-126)); lia | apply (IZR_le e 127); lia]).
  destruct (int_ok e ltac:(lia)) as [Ve Fe]. apply Rabs_le_inv in At.
  destruct (plus_ok (float_of_int e) T Fe Ft) as [Vs Fs].
  { rewrite Ve. apply small127. apply Rabs_le. lra. }
  rewrite Ve in Vs. pose proof (rnd_err (IZR e + b2r T)) as R1. rewrite <- Vs in R1. destruct ln2_val as [Vl Fl]. pose proof eta32_pos as Eta.
  assert (Rabs (IZR e + b2r T) <= 129) as A1 by (apply Rabs_le; lra). unfold u24 in R1.
  assert (Rabs (b2r (b32_plus mode_NE (float_of_int e) T) - (IZR e + b2r T)) <= 77 / 10000000) as R1' by lra. clear R1. apply Rabs_le_inv in R1'.
  set (s := b2r (b32_plus mode_NE (float_of_int e) T)) in *.
  pose proof ln2_lo as Lo. pose proof ln2_hi as Hi. unfold ln2_float in Vl.
  assert (Rabs (s * b2r b_ln2) <= 90) as A2.
  { rewrite Vl, Rabs_mult. apply Rle_trans with (129.1 * (11629080 / 16777216)); [| lra]. apply Rmult_le_compat; [apply Rabs_pos | apply Rabs_pos | apply Rabs_le; lra |]. rewrite Rabs_pos_eq; lra. }
  destruct (mult_ok (b32_plus mode_NE (float_of_int e) T) b_ln2 Fs Fl) as [Vr Fr].
  { fold s. apply small127. lra. }
  fold s in Vr. pose proof (rnd_err (s * b2r b_ln2)) as R2. rewrite <- Vr in R2. unfold u24 in R2.
  eexists. split; [reflexivity |]. split; [exact Fr |].
  set (r := b2r (b32_mult mode_NE (b32_plus mode_NE (float_of_int e) T) b_ln2)) in *.
  assert (Rabs (r - s * b2r b_ln2) <= 54 / 10000000) as R2' by lra. apply Rabs_le_inv in R2'. rewrite Vl in R2'.
  assert (Rabs (s * (11629080 / 16777216) - (IZR e + l) * ln 2) <= 58 / 10000000) as R3; [| apply Rabs_le_inv in R3; lra].
  replace (s * (11629080 / 16777216) - (IZR e + l) * ln 2) with ((s - (IZR e + l)) * (11629080 / 16777216) + (IZR e + l) * (11629080 / 16777216 - ln 2)) by ring.
  eapply Rle_trans; [apply Rabs_triang |]. rewrite !Rabs_mult.
  assert (Rabs (s - (IZR e + l)) <= 78 / 10000000) by (apply Rabs_le; lra).
  assert (Rabs (IZR e + l) <= 128) by (apply Rabs_le; lra).
  assert (Rabs (11629080 / 16777216 - ln 2) <= 2 / 1000000000) by (apply Rabs_le; lra).
  rewrite (Rabs_pos_eq (11629080 / 16777216)) by lra.
  assert (Rabs (IZR e + l) * Rabs (11629080 / 16777216 - ln 2) <= 128 * (2 / 1000000000)) by (apply Rmult_le_compat; try apply Rabs_pos; assumption).
  lra.
Qed.
Lemma log32 log2 x : good_log2 log2 -> fin x = true -> bpow radix2 (-126) <= b2r x ->
  fin (fast_log32 log2 x) = true /\ -12 / 1000000 <= ln (b2r x) - b2r (fast_log32 log2 x) <= / 16384 + 12 / 1000000.
Proof. intros H F L. unfold fast_log32. destruct (log_run log2 x H F L) as (r & -> & A). exact A. Qed.

(** The smallest positive float, and zero, are read as 2^-127. *)
Lemma log_low log2 x : good_log2 log2 -> bits_of_b32 x = 0%Z \/ bits_of_b32 x = 1%Z ->
  exists r, fast_log_run log2 x = Ok r /\ fin r = true /\ Rabs (b2r r + 127 * ln 2) <= / 10000.
Proof.
  intros HL B. unfold fast_log_run. destruct (table32 log2) as (t & -> & Ht). cbn [obind]. unfold fastlog32.
  assert (fastlog_exp (bits_of_b32 x) = (-127)%Z /\ fastlog_man 14 (bits_of_b32 x) = 0%Z) as [-> ->] by (destruct B as [-> | ->]; split; reflexivity).
  rewrite Ht by lia. cbn [obind]. destruct (arg_val 0 ltac:(lia)) as [Va Fa]. change (Z.to_nat 0) with 0%nat. change (INR 0) with 0 in Va.
  destruct (HL (fastlog_arg 14 0) Fa ltac:(rewrite Va; lra)) as [Ft At]. rewrite Va in At. replace (1 + 0 / 16384) with 1 in At by lra. rewrite ln_1 in At.
  set (T := log2 (fastlog_arg 14 0)) in *. clearbody T. replace (b2r T - 0 / ln 2) with (b2r T) in At by (unfold Rdiv; ring). apply Rabs_le_inv in At.
  destruct (int_ok (-127) ltac:(lia)) as [Ve Fe]. destruct (plus_ok (float_of_int (-127)) T Fe Ft) as [Vs Fs].
  { rewrite Ve. apply small127. apply Rabs_le. lra. }
  rewrite Ve in Vs. pose proof (rnd_err (-127 + b2r T)) as R1. rewrite <- Vs in R1. destruct ln2_val as [Vl Fl]. pose proof eta32_pos as Eta.
  assert (Rabs (-127 + b2r T) <= 128) as A1 by (apply Rabs_le; lra). unfold u24 in R1.
  assert (Rabs (b2r (b32_plus mode_NE (float_of_int (-127)) T) - (-127 + b2r T)) <= 77 / 10000000) as R1' by lra. clear R1. apply Rabs_le_inv in R1'.
  set (s := b32_plus mode_NE (float_of_int (-127)) T) in *. clearbody s. pose proof ln2_lo as Lo. pose proof ln2_hi as Hi. unfold ln2_float in Vl.
  assert (Rabs (b2r s * b2r b_ln2) <= 90) as A2 by (rewrite Vl; apply Rabs_le; lra).
  destruct (mult_ok s b_ln2 Fs Fl) as [Vr Fr]; [apply small127; lra |].
  pose proof (rnd_err (b2r s * b2r b_ln2)) as R2. rewrite <- Vr in R2. unfold u24 in R2.
  eexists. split; [reflexivity |]. split; [exact Fr |]. set (r := b2r (b32_mult mode_NE s b_ln2)) in *. clearbody r.
  assert (Rabs (r - b2r s * b2r b_ln2) <= 54 / 10000000) as R2' by lra. apply Rabs_le_inv in R2'. rewrite Vl in R2'. apply Rabs_le. lra.
Qed.

(** A function that satisfies the hypothesis on log2. *)
Definition log2_witness (x : binary32) : binary32 :=
  b32_div mode_NE (float_of_int (Zfloor (ln (b2r x) / ln 2 * 16777216))) (float_of_int 16777216).
Lemma log2_witness_good : good_log2 log2_witness.
Proof.
  intros x F H. unfold log2_witness. fold (b2r x) in *. set (l := ln (b2r x) / ln 2). pose proof ln2_lo as Lo. pose proof ln2_hi as Hi.
  assert (0 <= l < 1) as L.
  { assert (0 <= ln (b2r x)) as A by (rewrite <- ln_1; destruct (Rle_lt_or_eq_dec 1 (b2r x) ltac:(lra)) as [Q | <-]; [left; apply ln_increasing; lra | lra]).
    assert (ln (b2r x) < ln 2) as B by (apply ln_increasing; lra).
    unfold l. split; [apply Rmult_le_pos; [exact A | left; apply Rinv_0_lt_compat; lra] |].
    apply Rmult_lt_reg_r with (ln 2); [lra |]. unfold Rdiv. rewrite Rmult_assoc, Rinv_l by lra. lra. }
  set (n := Zfloor (l * 16777216)). pose proof (Zfloor_lb (l * 16777216)) as Z1. pose proof (Zfloor_ub (l * 16777216)) as Z2. fold n in Z1, Z2.
  assert (0 <= n < 16777216)%Z as Hn.
  { split; [apply le_IZR | apply lt_IZR]; [| lra]. apply IZR_le. unfold n. apply Zfloor_lub. lra. }
  destruct (int_ok n ltac:(lia)) as [En Fn].
  assert (b2r (float_of_int 16777216) = 16777216) as Ed.
  { assert (B2FF 24 128 (float_of_int 16777216) = F754_finite false 8388608 1) as E by (vm_compute; reflexivity). rewrite <- FF2R_B2FF, E. cbn. unfold F2R. cbn. lra. }
  assert (IZR n / 16777216 = IZR n * bpow radix2 (-24)) as Eq by (change (bpow radix2 (-24)) with (/ 16777216); reflexivity).
  assert (0 <= IZR n <= 16777216) as Rn by (split; [apply (IZR_le 0) | apply (IZR_le _ 16777216)]; lia).
  destruct (div_ok (float_of_int n) (float_of_int 16777216) Fn ltac:(rewrite Ed; lra)) as [E3 F3].
  { rewrite En, Ed. apply small127. apply Rabs_le. lra. }
  split; [exact F3 |]. fold (b2r (b32_div mode_NE (float_of_int n) (float_of_int 16777216))). rewrite E3, En, Ed, Eq, small_format by lia. rewrite <- Eq.
  apply Rabs_le. lra.
Qed.
