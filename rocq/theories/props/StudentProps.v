(** C92: Student's t, the predictive score of NormalInverseChiSq, and logarithms of Beta functions and binomial
    coefficients, in single precision.  [log2] is libm's log2, used once to fill the table of fast_log; [libm] is
    lgammaf, called by fast_lgamma outside [2.5, 2^32); [daz] says whether denormals are taken for zero. *)
From Coq Require Import List Reals Lra Lia ZArith Bool Binomial.
From Flocq Require Import Core BinarySingleNaN Binary Bits.
From Verif.model Require Import Base Num NumR FastExp FloatNum FastLog FastLgamma NICH Student.
From Verif.spec Require Import LogSpec DrawSpec StudentSpec.
From Verif.proof Require Import LnBounds PiBound LgammaBound FastExpProof FloatScoresProof FastLogProof FloatRel FloatOfReal FloatPredictive FloatPredictive2 FloatStirlingApprox StudentProof StudentFlat StudentGamma.
From Verif.props Require Import FloatScoreProps.
Local Open Scope R_scope.

(** Exact arithmetic: the predictive score of a group is Student's t with the posterior parameters, both functions of
    random.hpp agree, and they are the density up to the literal for pi. *)
Theorem C92_exact : forall lg (sh : nich_shared R) (g : nich_group R) (x : R),
  let post := nich_plus_group (N:=NumR lg) sh g in
  let lambda := ni_kappa post / ((ni_kappa post + 1) * ni_sigmasq post) in
  0 < ni_kappa post -> 0 < ni_sigmasq post -> 0 < ni_nu post ->
  nich_score_value (N:=NumR lg) sh g x = fast_score_student_t (N:=NumR lg) x (ni_nu post) (ni_mu post) lambda /\
  fast_score_student_t (N:=NumR lg) x (ni_nu post) (ni_mu post) lambda = score_student_t (N:=NumR lg) x (ni_nu post) (ni_mu post) lambda /\
  Rabs (nich_score_value (N:=NumR lg) sh g x - student_t lg (ni_nu post) (ni_mu post) lambda x) <= / 10 ^ 14.
Proof.
  intros lg sh g x post. unfold nich_score_value, nich_scorer_init, nich_scorer_eval. fold post. generalize post. clear post sh g. intros [mu k s nu].
  cbn [ni_mu ni_kappa ni_sigmasq ni_nu nis_score nis_coeff nis_prec nis_mean]. intros Pk Ps Pn.
  unfold fast_score_student_t, score_student_t, student_t, half, sqr, m_pif. cbn [nlit nadd nsub nmul ndiv nneg nlog nlgamma nlgamma_nu NumR].
  replace (1 / 1) with 1 by field. set (lam := k / ((k + 1) * s)).
  assert (0 < lam) as Pl by (apply Rdiv_lt_0_compat; [| apply Rmult_lt_0_compat]; lra).
  replace (lam / nu * ((x - mu) * (x - mu))) with (lam * ((x - mu) * (x - mu)) / nu) by (field; lra).
  replace (nu * (1 / 2) + 1 / 2) with (nu / 2 + / 2) by field. replace (nu * (1 / 2)) with (nu / 2) by field.
  split; [field |]. split; [field |].
  set (c := 314159265358979 / 100000000000000). assert (3 < c) as Pc by (unfold c; lra). pose proof pi_15 as [L U]. fold c in L.
  replace ((nu + 1) / 2) with (nu / 2 + / 2) by field. replace (lam * (x - mu) ^ 2 / nu) with (lam * ((x - mu) * (x - mu)) / nu) by (field; lra).
  assert (0 < c * nu) by (apply Rmult_lt_0_compat; lra). assert (0 < nu * PI) by (apply Rmult_lt_0_compat; lra).
  replace (lam / (c * nu)) with (lam / (nu * PI) * (PI / c)) by (field; repeat split; lra).
  rewrite (ln_mult (lam / (nu * PI)) (PI / c)) by (apply Rdiv_lt_0_compat; lra). set (K := ln (1 + lam * ((x - mu) * (x - mu)) / nu)). set (Q := ln (lam / (nu * PI))).
  match goal with |- Rabs ?e <= _ => replace e with (ln (PI / c) / 2) by (unfold Rdiv; field) end.
  assert (1 <= PI / c) as G1 by (apply Rmult_le_reg_r with c; [lra |]; unfold Rdiv; rewrite Rmult_assoc, Rinv_l; lra).
  assert (0 <= ln (PI / c)) by (rewrite <- ln_1; apply ln_le'; lra). rewrite Rabs_pos_eq by lra.
  assert (ln (PI / c) <= PI / c - 1) as G2.
  { rewrite <- (ln_exp (PI / c - 1)). apply ln_le'; [lra |]. pose proof (exp_ineq1_le (PI / c - 1)). lra. }
  assert (PI / c <= 1 + / 10 ^ 14) as G3.
  { apply Rmult_le_reg_r with c; [lra |]. unfold Rdiv. rewrite Rmult_assoc, Rinv_l, Rmult_1_r by lra. eapply Rle_trans; [exact U |]. unfold c. cbn [pow]. lra. }
  lra.
Qed.
Print Assumptions C92_exact.

(** In floats: fast_score_student_t is near the logarithm of the density, to within an error that grows with nu. *)
Theorem C92_student_t : forall tbl log2 libm lgam lfact sq pw lg (x nu mu lambda : binary32), is_log_gamma lg -> good_log2 log2 ->
  is_finite 24 128 x = true -> Rabs (B2R 24 128 x) <= bpow radix2 30 -> is_finite 24 128 mu = true -> Rabs (B2R 24 128 mu) <= bpow radix2 30 ->
  is_finite 24 128 nu = true -> / 16 <= B2R 24 128 nu <= bpow radix2 24 -> ordinary lambda ->
  let r := fast_score_student_t (N:=NumB tbl lit32 (fast_log32 log2) lgam (lgamma_nu32 libm) lfact sq pw) x nu mu lambda in
  is_finite 24 128 r = true /\
  Rabs (B2R 24 128 r - student_t lg (B2R 24 128 nu) (B2R 24 128 mu) (B2R 24 128 lambda) (B2R 24 128 x))
    <= 162 / 10000 + 47 / 1000000 * (B2R 24 128 nu + 1).
Proof. intros until lambda. intros HG H2 A B C D E F G. exact (student_close tbl log2 libm lgam lfact sq pw lg HG H2 x nu mu lambda A B C D E F G). Qed.
Print Assumptions C92_student_t.

(** The same for score_value of a group of NormalInverseChiSq. *)
Theorem C92_nich : forall tbl log2 libm lgam lfact sq pw lg sh g (x : binary32), is_log_gamma lg -> good_log2 log2 ->
  let N := NumB tbl lit32 (fast_log32 log2) lgam (lgamma_nu32 libm) lfact sq pw in
  let post := nich_plus_group (N:=N) sh g in
  let kappa := B2R 24 128 (ni_kappa post) in
  is_finite 24 128 x = true -> Rabs (B2R 24 128 x) <= bpow radix2 30 ->
  is_finite 24 128 (ni_mu post) = true -> Rabs (B2R 24 128 (ni_mu post)) <= bpow radix2 30 ->
  is_finite 24 128 (ni_nu post) = true -> / 16 <= B2R 24 128 (ni_nu post) <= bpow radix2 24 -> ordinary (ni_kappa post) -> ordinary (ni_sigmasq post) ->
  is_finite 24 128 (nich_score_value (N:=N) sh g x) = true /\
  Rabs (B2R 24 128 (nich_score_value (N:=N) sh g x) -
      student_t lg (B2R 24 128 (ni_nu post)) (B2R 24 128 (ni_mu post)) (kappa / ((kappa + 1) * B2R 24 128 (ni_sigmasq post))) (B2R 24 128 x))
    <= 162 / 10000 + 47 / 1000000 * (B2R 24 128 (ni_nu post) + 1).
Proof. intros until x. intros HG H2. exact (nich_close tbl log2 libm lgam lfact sq pw lg HG H2 sh g x). Qed.
Print Assumptions C92_nich.

(** Around the mean the score does not depend on the datum at all: with any libm, equal bit for bit. *)
Theorem C92_flat : forall tbl log2 libm lgam lfact sq pw sh g (x y : binary32),
  let N := NumB tbl lit32 (fast_log32 log2) lgam (lgamma_nu32 libm) lfact sq pw in
  let post := nich_plus_group (N:=N) sh g in
  let kappa := B2R 24 128 (ni_kappa post) in
  let precision := kappa / ((kappa + 1) * B2R 24 128 (ni_sigmasq post)) in
  is_finite 24 128 x = true -> Rabs (B2R 24 128 x) <= bpow radix2 30 -> is_finite 24 128 y = true -> Rabs (B2R 24 128 y) <= bpow radix2 30 ->
  is_finite 24 128 (ni_mu post) = true -> Rabs (B2R 24 128 (ni_mu post)) <= bpow radix2 30 ->
  is_finite 24 128 (ni_nu post) = true -> / 16 <= B2R 24 128 (ni_nu post) <= bpow radix2 24 -> ordinary (ni_kappa post) -> ordinary (ni_sigmasq post) ->
  precision * (B2R 24 128 x - B2R 24 128 (ni_mu post)) ^ 2 / B2R 24 128 (ni_nu post) <= 6 / 100000 ->
  precision * (B2R 24 128 y - B2R 24 128 (ni_mu post)) ^ 2 / B2R 24 128 (ni_nu post) <= 6 / 100000 ->
  nich_score_value (N:=N) sh g x = nich_score_value (N:=N) sh g y.
Proof. intros until y. exact (nich_flat tbl log2 libm lgam lfact sq pw sh g x y). Qed.
Print Assumptions C92_flat.

(** A group of 1048575 values with mean 0 and variance 1. *)
Definition big_shared : nich_shared binary32 := mk_nich_shared (float_of_int 0) (float_of_int 1) (float_of_int 1) (float_of_int 1).
Definition big_group : nich_group binary32 := mk_nich 1048575 (float_of_int 0) (float_of_int 1048575).
Lemma big_post N0 : (exists tbl log2 libm lgam lfact sq pw, N0 = NumB tbl lit32 (fast_log32 log2) lgam (lgamma_nu32 libm) lfact sq pw) ->
  nich_plus_group (N:=N0) big_shared big_group = mk_nich_shared (float_of_int 0) (float_of_int 1048576) (float_of_int 1) (float_of_int 1048576).
Proof.
  intros (tbl & log2 & libm & lgam & lfact & sq & pw & ->). unfold nich_plus_group, big_shared, big_group.
  cbn [nof nlit nadd nsub nmul ndiv NumB ni_mu ni_kappa ni_sigmasq ni_nu ni_count ni_mean ni_ctv].
  f_equal; apply (B2FF_inj 24 128); vm_compute; reflexivity.
Qed.
(** In that group 0 and 7 score alike, whereas the density at 7 is more than exp 24 times smaller. *)
Theorem C92_tails_refuted : exists (sh : nich_shared binary32) (g : nich_group binary32) (x y : binary32),
  B2R 24 128 x = 0 /\ B2R 24 128 y = 7 /\
  forall tbl log2 libm lgam lfact sq pw lg,
    let N := NumB tbl lit32 (fast_log32 log2) lgam (lgamma_nu32 libm) lfact sq pw in
    let post := nich_plus_group (N:=N) sh g in
    let kappa := B2R 24 128 (ni_kappa post) in
    let density := student_t lg (B2R 24 128 (ni_nu post)) (B2R 24 128 (ni_mu post)) (kappa / ((kappa + 1) * B2R 24 128 (ni_sigmasq post))) in
    nich_score_value (N:=N) sh g x = nich_score_value (N:=N) sh g y /\ density 7 + 24 < density 0.
Proof.
  exists big_shared, big_group, (float_of_int 0), (float_of_int 7).
  destruct (int_ok 0 ltac:(lia)) as [V0 F0]. destruct (int_ok 7 ltac:(lia)) as [V7 F7].
  split; [exact V0 |]. split; [exact V7 |]. intros tbl log2 libm lgam lfact sq pw lg N post. 
  assert (post = mk_nich_shared (float_of_int 0) (float_of_int 1048576) (float_of_int 1) (float_of_int 1048576)) as P.
  { apply big_post. exists tbl, log2, libm, lgam, lfact, sq, pw. reflexivity. }
  destruct (ordinary_int 1048576 ltac:(lia)) as [OK VK]. destruct (ordinary_int 1 ltac:(lia)) as [O1 V1].
  intros kappa density. split.
  - assert (forall n, (0 <= n <= 7)%Z -> Rabs (IZR n) <= bpow radix2 30) as S.
    { intros n H. rewrite Rabs_pos_eq by (apply (IZR_le 0); lia). apply Rle_trans with (bpow radix2 3); [apply (IZR_le n 8); lia | apply bpow_le; lia]. }
    apply (nich_flat tbl log2 libm lgam lfact sq pw big_shared big_group); fold N post; rewrite ?P; cbn [ni_mu ni_kappa ni_sigmasq ni_nu]; try assumption; rewrite ?VK, ?V1, ?V0, ?V7; try (apply S; lia).
    + change (bpow radix2 24) with 16777216. lra.
    + lra.
    + lra.
  - unfold density, kappa, student_t. rewrite P. cbn [ni_mu ni_kappa ni_sigmasq ni_nu]. rewrite VK, V1, V0.
    set (z := 1048576 / ((1048576 + 1) * 1) * (7 - 0) ^ 2 / 1048576). assert (z = 49 / 1048577) as Ez by (unfold z; field).
    replace (1 + 1048576 / ((1048576 + 1) * 1) * (0 - 0) ^ 2 / 1048576) with 1 by field. rewrite ln_1.
    assert (z - z * z <= ln (1 + z)) as Lz.
    { assert (0 < 1 + z) as Pz by lra. assert (- ln (1 + z) <= / (1 + z) - 1) as Q.
      { rewrite <- ln_Rinv by exact Pz. rewrite <- (ln_exp (/ (1 + z) - 1)). apply ln_le'; [now apply Rinv_0_lt_compat |]. pose proof (exp_ineq1_le (/ (1 + z) - 1)). lra. }
      assert (/ (1 + z) <= 1 - z + z * z) as W.
      { apply Rmult_le_reg_r with (1 + z); [exact Pz |]. rewrite Rinv_l by lra. assert (0 <= z) by lra. assert (0 <= z * z * z) by (apply Rmult_le_pos; [apply Rmult_le_pos |]; assumption). lra. }
      lra. }
    rewrite Ez in *. match goal with |- context[lg ?a - lg ?b + ?c] => set (K := lg a - lg b + c) end. lra.
Qed.
Print Assumptions C92_tails_refuted.

(** fast_log_beta, when the sum of the arguments is a float. *)
Theorem C92_log_beta : forall lg libm daz (a b : binary32), is_log_gamma lg -> good_lgammaf lg libm ->
  is_finite 24 128 a = true -> is_finite 24 128 b = true ->
  (B2R 24 128 a <= 0 \/ B2R 24 128 b <= 0 -> log_beta32 (fast_lgamma32 daz libm) a b = Ok (B754_infinity 24 128 true)) /\
  (bpow radix2 (-30) <= B2R 24 128 a -> bpow radix2 (-30) <= B2R 24 128 b -> B2R 24 128 a + B2R 24 128 b <= bpow radix2 24 ->
   B2R 24 128 (b32_plus mode_NE a b) = B2R 24 128 a + B2R 24 128 b ->
   exists r, log_beta32 (fast_lgamma32 daz libm) a b = Ok r /\ is_finite 24 128 r = true /\
     Rabs (B2R 24 128 r - (lg (B2R 24 128 a) + lg (B2R 24 128 b) - lg (B2R 24 128 a + B2R 24 128 b)))
       <= 6 / 1000000 * (Rabs (lg (B2R 24 128 a)) + Rabs (lg (B2R 24 128 b)) + Rabs (lg (B2R 24 128 a + B2R 24 128 b))) + / 1000).
Proof.
  intros lg libm daz a b HG HL Fa Fb. split; [apply log_beta_outside; assumption |]. intros A B C D.
  destruct (log_beta_close lg HG daz libm a b HL Fa Fb A B C D) as (r & E & F & G). now exists r.
Qed.
Print Assumptions C92_log_beta.

(** fast_log_binom of whole numbers: an error relative to log n!, not to the logarithm of the coefficient. *)
Theorem C92_log_binom : forall lg libm daz (n k : nat), is_log_gamma lg -> good_lgammaf lg libm -> (k <= n)%nat -> (Z.of_nat n < 16777215)%Z ->
  exists r, log_binom32 (fast_lgamma32 daz libm) (float_of_int (Z.of_nat n)) (float_of_int (Z.of_nat k)) = Ok r /\ is_finite 24 128 r = true /\
    Rabs (B2R 24 128 r - ln (Binomial.C n k)) <= 11 / 1000000 * ln (INR (fact n)) + / 1000.
Proof.
  intros lg libm daz n k HG HL A B. destruct (log_binom_close lg HG daz libm n k HL A B) as (r & E & F & G). now exists r.
Qed.
Print Assumptions C92_log_binom.

(** So it is no use for large n: of 4194303 over 1, whose logarithm is above 15, it makes less than -3. *)
Theorem C92_log_binom_refuted : exists n k : nat, (k <= n)%nat /\ 15 < ln (Binomial.C n k) /\
  forall lg libm daz, is_log_gamma lg -> good_lgammaf lg libm ->
  exists r, log_binom32 (fast_lgamma32 daz libm) (float_of_int (Z.of_nat n)) (float_of_int (Z.of_nat k)) = Ok r /\ is_finite 24 128 r = true /\ B2R 24 128 r < - (3).
Proof.
  exists (Z.to_nat 4194303), 1%nat. split; [lia |]. split; [exact ln_choose_22 |].
  intros lg libm daz HG HL. rewrite Z2Nat.id by lia. change (Z.of_nat 1) with 1%Z. exact (log_binom_negative lg libm daz HG HL).
Qed.
Print Assumptions C92_log_binom_refuted.

(** A lgammaf as asked for: the logarithm of Gamma, rounded to nearest. *)
Example C92_lgammaf_exists : forall lg, is_log_gamma lg -> good_lgammaf lg (fun x => of_real (lg (B2R 24 128 x))).
Proof.
  intros lg HG x F H. fold (b2r x) in *.
  assert (5 / 2 <= bpow radix2 24) as B by (change (bpow radix2 24) with 16777216; lra). pose proof (lg_mag lg HG (b2r x) ltac:(lra)) as M.
  assert (290000000 <= bpow radix2 127) by (apply Rle_trans with (bpow radix2 29); [change (bpow radix2 29) with 536870912; lra | apply bpow_le; lia]).
  destruct (of_real_ok (lg (b2r x)) ltac:(lra)) as [E G]. split; [exact G |]. change (B2R 24 128 (of_real (lg (b2r x)))) with (b2r (of_real (lg (b2r x)))). rewrite E.
  eapply Rle_trans; [apply rnd_err |]. unfold u24. pose proof eta32_pos. pose proof (Rabs_pos (lg (b2r x))). lra.
Qed.
(** Two values with mean 1: the posterior has kappa = nu = 4, mu = 1/2 and sigmasq = 1. *)
Example C92_nonvacuous_nich : let sh := mk_nich_shared (float_of_int 0) (float_of_int 2) (float_of_int 1) (float_of_int 2) in let g := mk_nich 2 (float_of_int 1) (float_of_int 1) in
  forall tbl libm lgam lfact sq pw, let N := NumB tbl lit32 (fast_log32 log2_witness) lgam (lgamma_nu32 libm) lfact sq pw in
  let post := nich_plus_group (N:=N) sh g in
  good_log2 log2_witness /\ ordinary (ni_kappa post) /\ ordinary (ni_sigmasq post) /\ ni_nu post = float_of_int 4 /\ ni_sigmasq post = float_of_int 1 /\ ni_mu post = b32_of_bits 1056964608.
Proof.
  intros sh g tbl libm lgam lfact sq pw N post.
  assert (post = mk_nich_shared (b32_of_bits 1056964608) (float_of_int 4) (float_of_int 1) (float_of_int 4)) as ->.
  { unfold post, nich_plus_group, sh, g, N. cbn [nof nlit nadd nsub nmul ndiv NumB ni_mu ni_kappa ni_sigmasq ni_nu ni_count ni_mean ni_ctv].
    f_equal; apply (B2FF_inj 24 128); vm_compute; reflexivity. }
  cbn [ni_mu ni_kappa ni_sigmasq ni_nu]. split; [exact log2_witness_good |]. repeat split; apply ordinary_int; lia.
Qed.
(** log B(1/2, 3) and 100 over 50 *)
Example C92_nonvacuous_beta : let a := b32_of_bits 1056964608 in let b := float_of_int 3 in
  ordinary a /\ ordinary b /\ B2R 24 128 (b32_plus mode_NE a b) = B2R 24 128 a + B2R 24 128 b /\ (50 <= 100)%nat.
Proof.
  cbv zeta. destruct ordinary_half as [O H]. destruct (ordinary_int 3 ltac:(lia)) as [O3 H3]. split; [exact O |]. split; [exact O3 |]. split; [| lia].
  replace (b32_plus mode_NE (b32_of_bits 1056964608) (float_of_int 3)) with (b32_of_bits 1080033280) by (apply (B2FF_inj 24 128); vm_compute; reflexivity).
  rewrite H, H3. assert (B2FF 24 128 (b32_of_bits 1080033280) = F754_finite false 14680064 (-22)) as Q by (vm_compute; reflexivity).
  rewrite <- FF2R_B2FF, Q. unfold FF2R, F2R. cbn [Fnum Fexp cond_Zopp]. change (bpow radix2 (-22)) with (/ 4194304). lra.
Qed.
