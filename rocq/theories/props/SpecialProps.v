(** Properties C47, C48, C66: table-driven logarithm, log-gamma and log-factorial.
    Floats are 32-bit patterns. *)
From Coq Require Import Reals Lra SpecFloat.
From Verif.model Require Import Base VectorMath SpecialTables Special.
From Verif.spec Require Import SpecialSpec.
From Verif.proof Require Import LnBounds SpecialProof.
Local Open Scope Z_scope.

(** Every pattern, NaN and negative numbers included, indexes inside a table of 2^N
    entries, and the constructor builds such a table. *)
Theorem C47_in_bounds : forall N b, 0 <= N <= 23 -> pattern b ->
  exists table r, fastlog_table N = Ok table /\ length table = Z.to_nat (2 ^ N) /\
    fastlog N table b = Ok r.
Proof.
  intros N b HN Hb. destruct (table_ok N HN) as (t & E & L & _).
  destruct (fastlog_safe N t b Hb HN L) as (r & Er). exists t, r. auto.
Qed.
Print Assumptions C47_in_bounds.

(** C47 asks fast_log(x) <= log(x).  The constant 0.69314718055994529f is above ln 2 once
    it is a float, so fast_log(2) > log(2); powers of two are not exact either. *)
Theorem C47_underestimate_refuted : exists b r, positive_normal b /\ normal_value b = 2%R /\
  fast_log b = Ok r /\ (ln 2 < r)%R.
Proof.
  exists 1073741824. assert (positive_normal 1073741824) as HP by (unfold positive_normal; lia).
  rewrite (fast_log_eq _ (normal_pattern _ HP)).
  change ((1073741824 / 8388608) mod 256 - 127) with 1.
  change (1073741824 mod 8388608 / 512) with 0.
  eexists. split; [exact HP |]. split.
  { unfold normal_value. change (1073741824 mod 8388608) with 0.
    change (1073741824 / 8388608 - 127) with 1. rewrite powerRZ_1. lra. }
  split; [reflexivity |].
  assert (log2t 14 0 = 0%R) as -> by (unfold log2t, Rdiv; rewrite Rmult_0_l, Rplus_0_r, ln_1; ring).
  pose proof ln2_float_close. lra.
Qed.
Print Assumptions C47_underestimate_refuted.

(** With that constant: for every positive normal float, within 2^-14 + 2.5e-7 below and
    2.5e-7 above.  (The statement of C47 has 2^-14 and 0.) *)
Theorem C47_accuracy_partial : forall b, positive_normal b -> exists r, fast_log b = Ok r /\
  (- 0.00000025 <= ln (normal_value b) - r <= / 16384 + 0.00000025)%R.
Proof. exact fast_log_accuracy. Qed.
Print Assumptions C47_accuracy_partial.

(** With the exact constant ln 2 the statement of C47 holds as it stands. *)
Theorem C47_exact_constant_partial : forall b, positive_normal b ->
  let s := (IZR ((b / 8388608) mod 256 - 127) + ln (1 + IZR (b mod 8388608 / 512) / 16384) / ln 2)%R in
  fast_log b = Ok (s * ln2_float)%R /\
  (s * ln 2 <= ln (normal_value b) <= s * ln 2 + / 16384)%R.
Proof.
  intros b Hb s. split; [exact (fast_log_eq b (normal_pattern b Hb)) |].
  destruct (split_log b Hb) as [E1 E2].
  replace s with (IZR (b / 8388608 - 127) + log2t 14 (b mod 8388608 / 512))%R; [lra |].
  unfold s. rewrite E1. do 2 f_equal. lia.
Qed.
Print Assumptions C47_exact_constant_partial.

(** Monotone on all floats with sign bit 0, from +0 through the subnormals to infinity
    (patterns of non-negative floats are ordered as the floats). *)
Theorem C47_monotone : forall b1 b2, 0 <= b1 <= b2 -> b2 < 2147483648 ->
  exists r1 r2, fast_log b1 = Ok r1 /\ fast_log b2 = Ok r2 /\ (r1 <= r2)%R.
Proof. exact fast_log_mono. Qed.
Print Assumptions C47_monotone.

(** fast_log(0) is finite: -127 times the constant. *)
Theorem C47_log_zero_finite : fast_log 0 = Ok (-127 * ln2_float)%R.
Proof.
  rewrite fast_log_eq by (unfold pattern; lia).
  change ((0 / 8388608) mod 256 - 127) with (-127). change (0 mod 8388608 / 512) with 0.
  do 2 f_equal. unfold log2t, Rdiv. rewrite Rmult_0_l, Rplus_0_r, ln_1. ring.
Qed.
Print Assumptions C47_log_zero_finite.

(** 1.5f, 3/2. *)
Example C47_nonvacuous : positive_normal 1069547520 /\ normal_value 1069547520 = (3 / 2)%R.
Proof.
  split; [unfold positive_normal; lia |]. unfold normal_value.
  change (1069547520 mod 8388608) with 4194304. change (1069547520 / 8388608 - 127) with 0.
  cbn [powerRZ]. lra.
Qed.

(** Every float but NaN: fast_lgamma and fast_lgamma_nu stay inside their tables. *)
Theorem C48_in_bounds_partial : forall b, pattern b -> ~ is_nan b ->
  (exists a, fast_lgamma b = Ok a) /\ (exists a, fast_lgamma_nu b = Ok a).
Proof. intros b Hb HN. split; [now apply lgamma_safe | now apply lgamma_nu_safe]. Qed.
Print Assumptions C48_in_bounds_partial.

(** Every NaN, quiet or signalling, of either sign, reads outside both tables. *)
Theorem C48_nan_refuted : forall b, pattern b -> is_nan b ->
  fast_lgamma b = UB /\ fast_lgamma_nu b = UB.
Proof. exact lgamma_nan. Qed.
Print Assumptions C48_nan_refuted.

(** The integer logarithm that selects the row is exact for every positive float, subnormal ones included. *)
Theorem C48_int_log2 : forall b, 0 < b < 2139095040 -> exists c, int_log2 b = Ok c /\
  (powerRZ 2 c <= positive_value b < powerRZ 2 (c + 1))%R.
Proof. exact int_log2_exact. Qed.
Print Assumptions C48_int_log2.

(** From 2.5f (resp. 0.0625f) to below 2^32 the row of the exponent is used; a row lists the highest power first. *)
Theorem C48_rows : forall b,
  (1075838976 <= b < 1333788672 -> fast_lgamma b =
    Ok (Poly (map literal (rev (firstn 6 (skipn (Z.to_nat ((b / 8388608 - 127) * 6)) lgamma_approx_coeff5)))))) /\
  (1031798784 <= b < 1333788672 -> fast_lgamma_nu b =
    Ok (Poly (map literal (rev (firstn 4 (skipn (Z.to_nat ((b / 8388608 - 123) / 2 * 4)) lgamma_nu_func_approx_coeff3)))))).
Proof. intros b. split; [apply lgamma_row | apply lgamma_nu_row]. Qed.
Print Assumptions C48_rows.

(** The smallest subnormal, 2^-149, and 2^-140. *)
Example C48_int_log2_run : int_log2 1 = Ok (-149) /\ int_log2 512 = Ok (-140).
Proof. split; reflexivity. Qed.

(** 3.0f is answered from row 1 of the table; the quiet NaN 0x7FC00000 is a NaN. *)
Example C48_nonvacuous :
  pattern 1077936128 /\ ~ is_nan 1077936128 /\
  (exists c, fast_lgamma 1077936128 = Ok (Poly c) /\ length c = 6%nat /\ nth 0 c 0%R = literal (113884496688843, -14)) /\
  pattern 2143289344 /\ is_nan 2143289344.
Proof.
  split; [unfold pattern; lia |]. split; [intros [H _]; revert H; vm_compute; discriminate |].
  split; [| split; [unfold pattern; lia | split; [reflexivity | vm_compute; discriminate]]].
  eexists. split; [reflexivity |]. split; reflexivity.
Qed.

(** For n < 64 the literal is within 10^-12 of log(n!); from 64 to 2^32 - 2 the answer is
    fast_lgamma(n + 1). *)
Theorem C66_factorial_partial : forall n, 0 <= n < 4294967295 ->
  (n < 64 -> exists v, fast_log_factorial n = Ok (Table v) /\
     (Rabs (v - ln (INR (fact (Z.to_nat n)))) <= / 1000000000000)%R) /\
  (64 <= n -> fast_log_factorial n = Ok (LgammaOf (n + 1))).
Proof.
  intros n Hn. unfold fast_log_factorial. destruct (Z.ltb_spec n 64) as [L | L].
  - split; [intros _ | lia]. destruct (table_entry n ltac:(lia)) as (p & E & B). rewrite E.
    cbn [obind]. eexists. split; [reflexivity | exact B].
  - split; [lia | intros _]. unfold u32. rewrite Z.mod_small by lia. reflexivity.
Qed.
Print Assumptions C66_factorial_partial.

(** For the last 32-bit n the argument wraps to 0: fast_lgamma(0), libm's infinity. *)
Theorem C66_last_wraps_refuted : fast_log_factorial 4294967295 = Ok (LgammaOf 0) /\
  fast_lgamma 0 = Ok Libm.
Proof. split; reflexivity. Qed.
Print Assumptions C66_last_wraps_refuted.

Example C66_nonvacuous : exists v, fast_log_factorial 63 = Ok (Table v).
Proof. eexists. reflexivity. Qed.
