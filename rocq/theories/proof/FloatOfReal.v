(** The float nearest to a real, and libm's functions rounded to nearest as witnesses. *)
From Coq Require Import Reals Lra ZArith Lia List.
From Flocq Require Import Core BinarySingleNaN Binary Bits.
From Verif.model Require Import Base FastExp.
From Verif.spec Require Import LseSpec.
From Verif.proof Require Import LnBounds FastExpProof FloatScoresProof FloatRel.
Local Open Scope R_scope.

Definition of_real (v : R) : binary32 :=
  let r := rnd v in
  binary_normalize 24 128 prec32 emax32 mode_NE (Ztrunc (scaled_mantissa radix2 (FLT_exp (-149) 24) r)) (cexp radix2 (FLT_exp (-149) 24) r) false.

Lemma of_real_ok v : Rabs v <= bpow radix2 127 -> b2r (of_real v) = rnd v /\ fin (of_real v) = true.
Proof.
  intros H. unfold of_real. pose proof (Binary.binary_normalize_correct 24 128 prec32 emax32 mode_NE
    (Ztrunc (scaled_mantissa radix2 (FLT_exp (-149) 24) (rnd v))) (cexp radix2 (FLT_exp (-149) 24) (rnd v)) false) as C.
  assert (generic_format radix2 (FLT_exp (-149) 24) (rnd v)) as GF by (apply generic_format_round; [apply FLT_exp_valid; reflexivity | apply valid_rnd_N]).
  assert (F2R (Float radix2 (Ztrunc (scaled_mantissa radix2 (FLT_exp (-149) 24) (rnd v))) (cexp radix2 (FLT_exp (-149) 24) (rnd v))) = rnd v) as E by (symmetry; exact GF).
  rewrite E in C. change (round radix2 (SpecFloat.fexp 24 128) (round_mode mode_NE) (rnd v)) with (rnd (rnd v)) in C.
  assert (rnd (rnd v) = rnd v) as I by (apply round_generic; [apply valid_rnd_N | exact GF]).
  pose proof (no_overflow _ H) as O. rewrite I in C. rewrite O in C. destruct C as (C1 & C2 & _). split; [exact C1 | exact C2].
Qed.

Definition expf_witness (x : binary32) : binary32 :=
  match x with B754_infinity true => B754_zero 24 128 false | _ => of_real (exp (b2r x)) end.
Definition logf_witness (x : binary32) : binary32 := of_real (ln (b2r x)).

Lemma one_val : b2r (float_of_int 1) = 1 /\ fin (float_of_int 1) = true.
Proof. exact (int_ok 1 eq_refl). Qed.
Lemma eta_small : eta32 <= bpow radix2 (-149).
Proof. unfold eta32. apply bpow_le. lia. Qed.

Lemma expf_witness_good : good_expf expf_witness.
Proof.
  split; [| reflexivity]. intros x F H. fold (b2r x) in H. fold (b2r x).
  assert (expf_witness x = of_real (exp (b2r x))) as -> by (destruct x as [| [|] | |]; try discriminate F; reflexivity).
  pose proof (exp_pos (b2r x)) as P. assert (exp (b2r x) <= 1) as L by (rewrite <- exp_0; apply exp_le; lra).
  destruct (of_real_ok (exp (b2r x))) as [E G]. { rewrite Rabs_pos_eq by lra. apply Rle_trans with (bpow radix2 0); [cbn; lra | apply bpow_le; lia]. }
  split; [exact G |]. fold (b2r (of_real (exp (b2r x)))). rewrite E. split.
  - split; [rewrite <- rnd_0; apply rnd_le; lra |]. destruct one_val as [V _]. rewrite <- V, <- (rnd_same (float_of_int 1)). apply rnd_le. lra.
  - pose proof (rnd_err (exp (b2r x))) as R. rewrite (Rabs_pos_eq (exp (b2r x))) in R by lra. pose proof eta_small. unfold u24 in R. lra.
Qed.

Lemma logf_witness_good : good_logf logf_witness.
Proof.
  intros x F H. fold (b2r x) in H. fold (b2r x). unfold logf_witness.
  assert (b2r x <= bpow radix2 128) as U by (left; apply Rle_lt_trans with (Rabs (b2r x)); [apply Rle_abs | apply abs_B2R_lt_emax]).
  assert (0 <= ln (b2r x) <= 100) as L.
  { split; [rewrite <- ln_1; apply ln_le'; lra |]. apply Rle_trans with (ln (bpow radix2 128)); [apply ln_le'; lra |].
    rewrite bpow_exp, ln_exp. change (IZR 128) with 128. change (IZR radix2) with 2. pose proof ln2_hi. lra. }
  destruct (of_real_ok (ln (b2r x))) as [E G]. { rewrite Rabs_pos_eq by lra. apply Rle_trans with (bpow radix2 7); [change (bpow radix2 7) with 128; lra | apply bpow_le; lia]. }
  split; [exact G |]. fold (b2r (of_real (ln (b2r x)))). rewrite E. destruct (Req_dec (b2r x) 1) as [Q | Q].
  - rewrite Q, ln_1, rnd_0. unfold Rminus, Rdiv. rewrite Ropp_0, Rplus_0_r, Rabs_R0. lra.
  - assert (1 + / 8388608 <= b2r x) as X.
    { assert (generic_format radix2 (FLT_exp (-149) 24) (b2r x)) as GX by apply generic_format_B2R.
      assert (generic_format radix2 (FLT_exp (-149) 24) 1) as G1 by (destruct one_val as [V _]; rewrite <- V; apply generic_format_B2R).
      assert (Valid_exp (FLT_exp (-149) 24)) as VE by (apply FLT_exp_valid; reflexivity).
      pose proof (succ_le_lt radix2 (FLT_exp (-149) 24) 1 (b2r x) G1 GX ltac:(lra)) as S.
      assert (succ radix2 (FLT_exp (-149) 24) 1 = 1 + / 8388608) as S1.
      { rewrite succ_eq_pos by lra. f_equal. change 1 with (bpow radix2 0). rewrite ulp_bpow. change (FLT_exp (-149) 24 (0 + 1)) with (-23)%Z. reflexivity. }
      lra. }
    assert (/ 16777216 <= ln (b2r x)) as Lx.
    { pose proof (ln_sub (b2r x) 1 ltac:(lra) ltac:(lra)) as D. rewrite ln_1 in D.
      assert ((1 - b2r x) / b2r x <= - / 16777216) as D2.
      { apply Rmult_le_reg_r with (b2r x); [lra |]. unfold Rdiv. rewrite Rmult_assoc, Rinv_l by lra. lra. } lra. }
    assert (eta32 <= / 16777216 * ln (b2r x)) as Et.
    { apply Rle_trans with (/ 16777216 * / 16777216); [| apply Rmult_le_compat_l; lra]. unfold eta32.
      apply Rle_trans with (bpow radix2 (-48)); [apply bpow_le; lia |]. change (bpow radix2 (-48)) with (/ 281474976710656). lra. }
    pose proof (rnd_err (ln (b2r x))) as R. rewrite (Rabs_pos_eq (ln (b2r x))) in R by lra. unfold u24 in R. lra.
Qed.
