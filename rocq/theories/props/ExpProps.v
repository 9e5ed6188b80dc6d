(** C80: fast_exp, the exponential behind likelihoods, sampling and scores. *)
From Coq Require Import Reals Lra ZArith List.
From Flocq Require Import Core BinarySingleNaN Binary Bits.
From Verif.model Require Import Base ExpTable FastExp.
From Verif.spec Require Import ExpSpec.
From Verif.proof Require Import FastExpProof ExpTableProof.
Local Open Scope R_scope.

(** For every finite float between -87 and 88 the answer is finite and differs from the exponential by at
    most (|x| + 8) 2^-23 of it.  What is missing: arguments above 88 and the infinities, see below. *)
Theorem C80_exp_accurate_partial tbl x :
  faithful_table tbl -> is_finite 24 128 x = true -> -87 <= B2R 24 128 x <= 88 ->
  exists y, fast_exp tbl x = Ok y /\ is_finite 24 128 y = true /\
    Rabs (B2R 24 128 y - exp (B2R 24 128 x)) <= (Rabs (B2R 24 128 x) + 8) / 8388608 * exp (B2R 24 128 x).
Proof. exact (fast_exp_core tbl x). Qed.
Print Assumptions C80_exp_accurate_partial.

(** Below -87, down to about minus a thousand million, the answer is finite, not negative and at most 2^-124. *)
Theorem C80_exp_underflow tbl x :
  faithful_table tbl -> is_finite 24 128 x = true -> -1028653000 <= B2R 24 128 x <= -87 ->
  exists y, fast_exp tbl x = Ok y /\ is_finite 24 128 y = true /\ 0 <= B2R 24 128 y <= bpow radix2 (-124).
Proof. exact (fast_exp_low tbl x). Qed.
Print Assumptions C80_exp_underflow.

(** Hence no likelihood of a score that is not above 88 is negative. *)
Theorem C80_exp_not_negative tbl x :
  faithful_table tbl -> is_finite 24 128 x = true -> -1028653000 <= B2R 24 128 x <= 88 ->
  exists y, fast_exp tbl x = Ok y /\ is_finite 24 128 y = true /\ 0 <= B2R 24 128 y.
Proof.
  intros T F H. destruct (Rle_or_lt (B2R 24 128 x) (-87)) as [L | L].
  - destruct (fast_exp_low tbl x T F ltac:(lra)) as (y & E & G & B & _). now exists y.
  - destruct (fast_exp_core tbl x T F ltac:(lra)) as (y & E & G & B). exists y. split; [exact E |].
    split; [exact G |]. apply Rabs_le_inv in B. pose proof (exp_pos (B2R 24 128 x)) as P.
    assert (Rabs (B2R 24 128 x) <= 88) as A by (apply Rabs_le; lra).
    assert ((Rabs (B2R 24 128 x) + 8) / 8388608 * exp (B2R 24 128 x) <= 1 * exp (B2R 24 128 x)) as Q
      by (apply Rmult_le_compat_r; lra).
    lra.
Qed.
Print Assumptions C80_exp_not_negative.

Local Lemma by_bits o n :
  match o with Ok y => Some (bits_of_b32 y) | _ => None end = Some n -> o = Ok (b32_of_bits n).
Proof.
  destruct o as [y | |]; intros H; try discriminate H. injection H as <-. f_equal.
  symmetry. unfold b32_of_bits, bits_of_b32. now apply (binary_float_of_bits_of_binary_float 23 8).
Qed.
Local Ltac run := apply by_bits; vm_compute; reflexivity.

(** exp 0 is 1 exactly, whichever zero and whichever faithful table. *)
Theorem C80_exp_zero tbl s :
  faithful_table tbl ->
  exists y, fast_exp tbl (B754_zero 24 128 s) = Ok y /\ is_finite 24 128 y = true /\ B2R 24 128 y = 1.
Proof.
  intros (HL & H0 & _). destruct tbl as [| m tbl]; [discriminate H0 |]. injection H0 as ->.
  destruct (bits_ok 127 0 ltac:(lia) ltac:(lia)) as [F E].
  exists (b32_of_bits (127 * 8388608 + 0)). split; [destruct s; run |]. split; [exact F |].
  rewrite E. cbn. lra.
Qed.
Print Assumptions C80_exp_zero.

(** The table the constructor fills in is of the required kind. *)
Theorem C80_table : faithful_table exp_table.
Proof. exact exp_table_faithful. Qed.
Print Assumptions C80_table.

(** The clamp tests the argument rounded to an integer against the bits of 88.0f, so nothing above 88 is
    ever clamped: exp 89 is not a number and exp 100 is negative. *)
Theorem C80_exp_large_refuted :
  exists x y x' y', B2R 24 128 x = 89 /\ fast_exp exp_table x = Ok y /\ is_nan 24 128 y = true /\
    B2R 24 128 x' = 100 /\ fast_exp exp_table x' = Ok y' /\ is_finite 24 128 y' = true /\ B2R 24 128 y' < 0.
Proof.
  exists (float_of_int 89), (b32_of_bits 2141770772), (float_of_int 100), (b32_of_bits 2275035692).
  split; [exact (proj1 (int_ok 89 eq_refl)) |]. split; [run |]. split; [reflexivity |].
  split; [exact (proj1 (int_ok 100 eq_refl)) |]. split; [run |]. split; [reflexivity |].
  cbn -[IZR bpow]. unfold F2R. cbn [Fnum Fexp]. apply Ropp_lt_cancel. rewrite Ropp_0, <- Ropp_mult_distr_l_reverse.
  apply Rmult_lt_0_compat; [| apply bpow_gt_0]. rewrite <- opp_IZR. apply IZR_lt. reflexivity.
Qed.
Print Assumptions C80_exp_large_refuted.

(** Scores of minus infinity, of less than about -1.03e9, and not a number reach a shift of a negative
    number, which is undefined. *)
Theorem C80_exp_undefined_refuted :
  fast_exp exp_table (B754_infinity 24 128 true) = UB /\
  fast_exp exp_table (B754_infinity 24 128 false) = UB /\
  (exists x, is_finite 24 128 x = true /\ B2R 24 128 x < 0 /\ fast_exp exp_table x = UB) /\
  (exists x, is_nan 24 128 x = true /\ fast_exp exp_table x = UB).
Proof.
  split; [vm_compute; reflexivity |]. split; [vm_compute; reflexivity |]. split.
  - exists (float_of_int (-1100000000)). split; [reflexivity |]. split; [| vm_compute; reflexivity].
    cbn -[IZR bpow]. unfold F2R. cbn [Fnum Fexp]. apply Ropp_lt_cancel. rewrite Ropp_0, <- Ropp_mult_distr_l_reverse.
    apply Rmult_lt_0_compat; [| apply bpow_gt_0]. rewrite <- opp_IZR. apply IZR_lt. reflexivity.
  - exists (b32_of_bits 2143289344). split; vm_compute; reflexivity.
Qed.
Print Assumptions C80_exp_undefined_refuted.

(** Examples: exp 1 as the code computes it; exp (-100) is a positive subnormal number; -100 and 1 meet the
    hypotheses above. *)
Example exp_one : fast_exp exp_table (float_of_int 1) = Ok (b32_of_bits 1076754517).
Proof. run. Qed.
Example exp_one_in_domain : is_finite 24 128 (float_of_int 1) = true /\ -87 <= B2R 24 128 (float_of_int 1) <= 88.
Proof. destruct (int_ok 1 eq_refl) as [-> ->]. lra. Qed.
Example exp_minus_100 : fast_exp exp_table (float_of_int (-100)) = Ok (b32_of_bits 253578).
Proof. run. Qed.
Example exp_minus_100_in_domain :
  is_finite 24 128 (float_of_int (-100)) = true /\ -1028653000 <= B2R 24 128 (float_of_int (-100)) <= -87.
Proof. destruct (int_ok (-100) eq_refl) as [-> ->]. lra. Qed.
