(** The approximate rows of get_log_stirling1_row in single precision. *)
From Coq Require Import Reals Lra ZArith Lia List.
From Flocq Require Import Core BinarySingleNaN Binary Bits Relative.
From Verif.model Require Import Base FastExp FloatNum FastLog VectorMath Special FastLgamma FloatLse FloatStirling.
From Verif.spec Require Import ExpSpec LogSpec LseSpec StirlingSpec FloatStirlingSpec.
From Verif.proof Require Import LnBounds LgammaSeg BaseProof LoopProof FastLgammaProof FastLgammaMore FastExpProof FloatScoresProof FloatNichProof FloatRel FloatLseProof VectorProof StirlingProof FloatStirlingProof StirlingBounds.
From Verif.props Require Import FastLgammaProps.
Import ListNotations.
Local Open Scope R_scope.

(** [x] is finite and within [e] of [X]. *)
Definition app (e : R) (x : binary32) (X : R) : Prop := fin x = true /\ Rabs (b2r x - X) <= e.
Lemma app_weaken e f x X : app e x X -> e <= f -> app f x X.
Proof. intros [A B] H. split; [exact A | lra]. Qed.
Lemma eta_small : eta32 <= / 1000000000000.
Proof. apply eta32_pos. Qed.

Lemma app_plus x y X Y e f B : app e x X -> app f y Y -> Rabs (X + Y) + e + f <= B <= 1000000000 ->
  app (e + f + B / 16777216 + / 1000000000000) (b32_plus mode_NE x y) (X + Y).
Proof.
  intros [Fx Hx] [Fy Hy] HB. assert (Rabs (b2r x + b2r y) <= B) as M.
  { replace (b2r x + b2r y) with ((X + Y) + ((b2r x - X) + (b2r y - Y))) by ring. eapply Rle_trans; [apply Rabs_triang |].
    pose proof (Rabs_triang (b2r x - X) (b2r y - Y)). lra. }
  pose proof bpow127. destruct (plus_ok x y Fx Fy ltac:(lra)) as [E F]. split; [exact F |].
  pose proof (rnd_err (b2r x + b2r y)) as R. rewrite <- E in R. unfold u24 in R. pose proof eta_small.
  apply Rabs_le_inv in R. apply Rabs_le_inv in Hx. apply Rabs_le_inv in Hy. apply Rabs_le. lra.
Qed.
Lemma app_minus x y X Y e f B : app e x X -> app f y Y -> Rabs (X - Y) + e + f <= B <= 1000000000 ->
  app (e + f + B / 16777216 + / 1000000000000) (b32_minus mode_NE x y) (X - Y).
Proof.
  intros [Fx Hx] [Fy Hy] HB. assert (Rabs (b2r x - b2r y) <= B) as M.
  { replace (b2r x - b2r y) with ((X - Y) + ((b2r x - X) + - (b2r y - Y))) by ring. eapply Rle_trans; [apply Rabs_triang |].
    pose proof (Rabs_triang (b2r x - X) (- (b2r y - Y))) as T. rewrite Rabs_Ropp in T. lra. }
  pose proof bpow127. destruct (minus_ok x y Fx Fy ltac:(lra)) as [E F]. split; [exact F |].
  pose proof (rnd_err (b2r x - b2r y)) as R. rewrite <- E in R. unfold u24 in R. pose proof eta_small.
  apply Rabs_le_inv in R. apply Rabs_le_inv in Hx. apply Rabs_le_inv in Hy. apply Rabs_le. lra.
Qed.
Lemma app_mult x y X Y e f A C : app e x X -> app f y Y -> Rabs X <= A -> Rabs Y <= C -> A * C + (e * C + f * A + e * f) <= 1000000000 ->
  app (e * C + f * A + e * f + (A * C + (e * C + f * A + e * f)) / 16777216 + / 1000000000000) (b32_mult mode_NE x y) (X * Y).
Proof.
  intros [Fx Hx] [Fy Hy] HA HC HB. set (d := e * C + f * A + e * f) in *.
  assert (Rabs (b2r x * b2r y - X * Y) <= d) as M.
  { replace (b2r x * b2r y - X * Y) with ((b2r x - X) * Y + ((b2r y - Y) * X + (b2r x - X) * (b2r y - Y))) by ring.
    eapply Rle_trans; [apply Rabs_triang |]. pose proof (Rabs_triang ((b2r y - Y) * X) ((b2r x - X) * (b2r y - Y))) as T. rewrite !Rabs_mult in *.
    pose proof (Rabs_pos (b2r x - X)). pose proof (Rabs_pos (b2r y - Y)). pose proof (Rabs_pos X). pose proof (Rabs_pos Y).
    assert (Rabs (b2r x - X) * Rabs Y <= e * C) by (apply Rmult_le_compat; lra). assert (Rabs (b2r y - Y) * Rabs X <= f * A) by (apply Rmult_le_compat; lra).
    assert (Rabs (b2r x - X) * Rabs (b2r y - Y) <= e * f) by (apply Rmult_le_compat; lra). unfold d. lra. }
  assert (Rabs (X * Y) <= A * C) as XY by (rewrite Rabs_mult; apply Rmult_le_compat; try apply Rabs_pos; lra).
  assert (Rabs (b2r x * b2r y) <= A * C + d) as M2.
  { replace (b2r x * b2r y) with (X * Y + (b2r x * b2r y - X * Y)) by ring. eapply Rle_trans; [apply Rabs_triang |]. lra. }
  pose proof bpow127. destruct (mult_ok x y Fx Fy ltac:(lra)) as [E F]. split; [exact F |].
  pose proof (rnd_err (b2r x * b2r y)) as R. rewrite <- E in R. unfold u24 in R. pose proof eta_small.
  apply Rabs_le_inv in R. apply Rabs_le_inv in M. apply Rabs_le. lra.
Qed.
Lemma app_int m : (Z.abs m < 16777216)%Z -> app 0 (float_of_int m) (IZR m).
Proof. intros H. destruct (int_ok m H) as [E F]. split; [exact F |]. rewrite E, Rminus_eq_0, Rabs_R0. lra. Qed.
Lemma app_nat m : (Z.of_nat m < 16777216)%Z -> app 0 (float_of_int (Z.of_nat m)) (INR m).
Proof. intros H. rewrite INR_IZR_INZ. apply app_int. lia. Qed.

(** logf of an approximate argument *)
Lemma app_logf logf e x X T : good_logf logf -> app e x X -> 2 + e <= X -> 0 <= e -> ln X + e <= T ->
  app (e + T / 8388608) (logf x) (ln X).
Proof.
  intros HL [Fx Hx] HX He HT. apply Rabs_le_inv in Hx. destruct (HL x Fx) as [Fl Bl]. { fold (b2r x). lra. } fold (b2r x) (b2r (logf x)) in Bl.
  split; [exact Fl |]. pose proof (ln_sub X (b2r x) ltac:(lra) ltac:(lra)) as A. pose proof (ln_sub (b2r x) X ltac:(lra) ltac:(lra)) as B.
  assert (forall u d, 1 <= u -> d <= e -> d / u <= e) as Q. { intros u d Hu Hd. apply Rmult_le_reg_r with u; [lra |]. unfold Rdiv. rewrite Rmult_assoc, Rinv_l by lra. nra. }
  pose proof (Q X (b2r x - X) ltac:(lra) ltac:(lra)). pose proof (Q (b2r x) (X - b2r x) ltac:(lra) ltac:(lra)).
  apply Rabs_le_inv in Bl. apply Rabs_le. lra.
Qed.

Lemma logfact_le N m : 1 <= N -> INR m <= N -> logfact m <= INR m * ln N.
Proof.
  intros HN. unfold logfact. induction m as [| m IH]; intros Hm; [cbn; rewrite ln_1; lra |].
  rewrite fact_SR, ln_mult; [| apply lt_0_INR; lia | apply fact_pos].
  assert (ln (INR (S m)) <= ln N) by (apply ln_le'; [apply lt_0_INR; lia | exact Hm]). pose proof (S_INR m) as E. specialize (IH ltac:(lra)). rewrite E at 2. lra.
Qed.
Lemma fact32 daz libm m : (Z.of_nat m <= 1048576)%Z -> exists r, fast_log_factorial32 daz libm (Z.of_nat m) = Ok r /\
  app (45 / 10000000 * logfact m + / 1000000000) r (logfact m).
Proof.
  intros H. unfold fast_log_factorial32. pose proof (logfact_nonneg m) as P. destruct (Z.ltb_spec (Z.of_nat m) 64) as [L | L].
  - destruct (factorial_table (Z.of_nat m) ltac:(lia)) as (r & E & F & B). rewrite Nat2Z.id in B. exists r. split; [exact E |]. split; [exact F |]. lra.
  - destruct (C86_log_factorial_partial daz libm (Z.of_nat m) ltac:(lia) ltac:(lia)) as (r & E & F & B). rewrite Nat2Z.id in B.
    exists r. split; [exact E |]. split; [exact F |]. unfold logfact in *. fold (b2r r) in B. lra.
Qed.

Notation gam := euler.
Lemma gam_float : b2r b_gamma = gam /\ fin b_gamma = true.
Proof.
  split; [| reflexivity]. transitivity (LgammaSeg.cval (LgammaSeg.coef 1058260072)); [symmetry; exact (coef_fin_val _) |].
  assert (LgammaSeg.coef 1058260072 = (9684072, -24)%Z) as -> by (vm_compute; reflexivity). unfold LgammaSeg.cval, euler. cbn [fst snd]. change (bpow radix2 (-24)) with (/ 16777216). lra.
Qed.
Lemma gam_val : 5772156 / 10000000 <= gam <= 5772157 / 10000000 /\ fin b_gamma = true.
Proof. split; [unfold euler; lra | reflexivity]. Qed.

Section Point.
  Variables (expf logf : binary32 -> binary32) (tbl : list Z) (log2 : binary32 -> binary32) (daz : bool) (libm : binary32 -> binary32).
  Hypothesis HL : good_logf logf.
  Hypothesis HT : faithful_table tbl.
  Hypothesis HG : good_log2 log2.
  Variable n : nat.
  Hypothesis Hn : (32 <= Z.of_nat n <= 1048576)%Z.
  Let N : R := INR n.

  Lemma N_range : 32 <= N <= 1048576.
  Proof. unfold N. rewrite INR_IZR_INZ. split; apply IZR_le; lia. Qed.
  Lemma lnN : 34338 / 10000 <= ln N <= 1387 / 100.
  Proof.
    pose proof N_range. split.
    - pose proof (ln_n1 n ltac:(lia)) as A. eapply Rle_trans; [exact A |]. apply ln_le'; [apply lt_0_INR; lia |]. apply le_INR. lia.
    - apply Rle_trans with (ln (2 ^ 20)); [apply ln_le'; lra |]. rewrite ln_pow by lra. replace (INR 20) with 20 by (rewrite INR_IZR_INZ; reflexivity). pose proof ln2_hi. lra.
  Qed.
  Lemma fact_at m : (m <= n)%nat -> exists r, fast_log_factorial32 daz libm (Z.modulo (Z.of_nat m) 4294967296) = Ok r /\ app (63 / 1000000 * N) r (logfact m) /\ 0 <= logfact m <= 1387 / 100 * N.
  Proof.
    intros Hm. rewrite Z.mod_small by lia. destruct (fact32 daz libm m ltac:(lia)) as (r & E & A). exists r. split; [exact E |].
    pose proof N_range as R. pose proof lnN as L. pose proof (logfact_nonneg m) as P.
    assert (INR m <= N) as MN by (apply le_INR; exact Hm). pose proof (pos_INR m) as PM.
    pose proof (logfact_le N m ltac:(lra) MN) as U.
    assert (INR m * ln N <= N * (1387 / 100)) as V by (apply Rmult_le_compat; lra).
    split; [| lra]. apply (app_weaken _ _ _ _ A). lra.
  Qed.

  Lemma stuff_ok : app (4 / 1000000) (log_stuff logf n) (ln (gam + ln (INR (n - 1)))) /\ 0 <= ln (gam + ln (INR (n - 1))) <= 278 / 100.
  Proof.
    pose proof gam_val as [G FG]. pose proof (ln_n1 n ltac:(lia)) as L0. pose proof lnN as LN.
    assert (ln (INR (n - 1)) <= 1387 / 100) as L1. { apply Rle_trans with (ln N); [| apply LN]. apply ln_le'; [apply lt_0_INR; lia | apply le_INR; lia]. }
    assert (31 <= INR (n - 1)) as N1 by (replace 31 with (INR 31) by (rewrite INR_IZR_INZ; reflexivity); apply le_INR; lia).
    pose proof (app_logf logf 0 _ _ (1387 / 100) HL (app_nat (n - 1) ltac:(lia)) ltac:(lra) ltac:(lra) ltac:(lra)) as A.
    assert (app 0 b_gamma gam) as AG by (split; [exact FG | rewrite (proj1 gam_float), Rminus_eq_0, Rabs_R0; lra]).
    set (l := ln (INR (n - 1))) in *.
    pose proof (app_plus _ _ _ _ _ _ 15 AG A) as B. specialize (B ltac:(rewrite (Rabs_pos_eq (gam + l)) by lra; lra)).
    assert (0 <= ln (gam + l) <= 278 / 100) as R.
    { split; [rewrite <- ln_1; apply ln_le'; lra |]. apply Rle_trans with (ln (2 ^ 4)); [apply ln_le'; lra |]. rewrite ln_pow by lra. replace (INR 4) with 4 by (rewrite INR_IZR_INZ; reflexivity). pose proof ln2_hi. lra. }
    split; [| exact R]. unfold log_stuff. apply (app_weaken _ _ _ _ (app_logf logf (/ 300000) _ (gam + l) 3 HL (app_weaken _ (/ 300000) _ _ B ltac:(lra)) ltac:(lra) ltac:(lra) ltac:(lra))). lra.
  Qed.

  Lemma square_ok : app (4 / 1000000) (log_n_squared_over_two logf n) (ln (N * N / 2)) /\ 0 <= ln (N * N / 2) <= 272 / 10.
  Proof.
    pose proof N_range as R. pose proof lnN as LN. pose proof ln2_hi as L2.
    assert (1024 <= N * N <= 1099511627776) as R2 by (split; nra).
    assert (0 <= ln (N * N / 2) <= 272 / 10) as Rg.
    { split; [rewrite <- ln_1; apply ln_le'; lra |]. apply Rle_trans with (ln (2 ^ 39)); [apply ln_le'; lra |]. rewrite ln_pow by lra. replace (INR 39) with 39 by (rewrite INR_IZR_INZ; reflexivity). lra. }
    split; [| exact Rg]. unfold log_n_squared_over_two.
    assert (0 <= Z.of_nat n * Z.of_nat n <= 1099511627776)%Z as Rz by nia.
    rewrite Z.mod_small by lia.
    assert (b2r (float_of_int (Z.of_nat n * Z.of_nat n)) = rnd (N * N) /\ fin (float_of_int (Z.of_nat n * Z.of_nat n)) = true) as [Es Fs].
    { unfold float_of_int. pose proof (Binary.binary_normalize_correct 24 128 prec32 emax32 mode_NE (Z.of_nat n * Z.of_nat n) 0 false) as C.
      assert (F2R (Float radix2 (Z.of_nat n * Z.of_nat n) 0) = N * N) as E by (unfold F2R; cbn [Fnum Fexp]; rewrite mult_IZR, <- INR_IZR_INZ; cbn; unfold N; ring).
      rewrite E in C. cbn [round_mode] in C.
      assert (Rabs (N * N) <= bpow radix2 127) as HB.
      { rewrite Rabs_pos_eq by lra. apply Rle_trans with (bpow radix2 40); [change (bpow radix2 40) with 1099511627776; lra | apply bpow_le; lia]. }
      pose proof (no_overflow _ HB) as O. unfold rnd in O. rewrite O in C. destruct C as (C1 & C2 & _). now split. }
    set (x := float_of_int (Z.of_nat n * Z.of_nat n)) in *.
    pose proof (rnd_err (N * N)) as Rx. rewrite <- Es, (Rabs_pos_eq (N * N)) in Rx by lra. unfold u24 in Rx. pose proof eta_small as Et. apply Rabs_le_inv in Rx.
    destruct (int_ok 2 eq_refl) as [E2 F2].
    destruct (div_ok x (float_of_int 2) Fs ltac:(rewrite E2; lra)) as [Ed Fd].
    { rewrite E2, Rabs_pos_eq by lra. apply Rle_trans with (bpow radix2 41); [change (bpow radix2 41) with 2199023255552; lra | apply bpow_le; lia]. }
    rewrite E2 in Ed. pose proof (rnd_err (b2r x / 2)) as Rd. rewrite <- Ed, (Rabs_pos_eq (b2r x / 2)) in Rd by lra. unfold u24 in Rd. apply Rabs_le_inv in Rd.
    set (d := b32_div mode_NE x (float_of_int 2)) in *. clearbody d x.
    destruct (ln_ratio (N * N / 2) (b2r d) (13 / 100000000) ltac:(lra) ltac:(lra)) as [Pd Ld]. { apply Rabs_le. lra. }
    destruct (HL d Fd) as [Fl Bl]. { fold (b2r d). lra. } fold (b2r d) (b2r (logf d)) in Bl. split; [exact Fl |].
    assert (13 / 100000000 / (1 - 13 / 100000000) <= 14 / 100000000) as Q by lra. apply Rabs_le_inv in Ld. apply Rabs_le_inv in Bl. apply Rabs_le. lra.
  Qed.

  Lemma soft_ok : app (21 / 1000000000 * N) (softness n) (N / 3).
  Proof.
    pose proof N_range as R. unfold softness.
    assert (forall m : Z, (Z.abs m < 9007199254740992)%Z -> v64 (binary_normalize 53 1024 prec64 emax64 mode_NE m 0 false) = IZR m /\ fin64 (binary_normalize 53 1024 prec64 emax64 mode_NE m 0 false) = true) as I.
    { intros m Hm. pose proof (Binary.binary_normalize_correct 53 1024 prec64 emax64 mode_NE m 0 false) as C.
      assert (F2R (Float radix2 m 0) = IZR m) as E by (unfold F2R; cbn; ring). rewrite E in C. cbn [round_mode] in C.
      assert (generic_format radix2 (SpecFloat.fexp 53 1024) (IZR m)) as G.
      { change (SpecFloat.fexp 53 1024) with (FLT_exp (-1074) 53).
        apply generic_format_FLT. exists (Float radix2 m 0); [now rewrite E | cbn [Fnum]; change (radix_val radix2 ^ 53)%Z with 9007199254740992%Z; lia | cbn [Fexp]; lia]. }
      rewrite round_generic in C; [| typeclasses eauto | exact G].
      rewrite Rlt_bool_true in C. { destruct C as (C1 & C2 & _). now split. }
      rewrite <- abs_IZR. apply Rle_lt_trans with (IZR 9007199254740992); [apply IZR_le; lia |]. change (IZR 9007199254740992) with (bpow radix2 53). apply bpow_lt. reflexivity. }
    destruct (I (Z.of_nat n) ltac:(lia)) as [Vn Fn]. destruct (I 3%Z ltac:(lia)) as [V3 F3]. rewrite <- INR_IZR_INZ in Vn. fold N in Vn.
    set (a := binary_normalize 53 1024 prec64 emax64 mode_NE (Z.of_nat n) 0 false) in *. set (b := binary_normalize 53 1024 prec64 emax64 mode_NE 3 0 false) in *. clearbody a b.
    pose proof (Binary.Bdiv_correct 53 1024 (refl_equal _) (refl_equal _) binop_nan_pl64 mode_NE a b ltac:(rewrite V3; lra)) as C. rewrite Vn, V3 in C. cbn [round_mode] in C.
    assert (Rabs (round radix2 (SpecFloat.fexp 53 1024) ZnearestE (N / 3) - N / 3) <= / 1000000000000000 * (N / 3)) as E.
    { assert (Prec_gt_0 53) as PG by reflexivity. pose proof (relative_error_N_FLT radix2 (-1074) 53 PG (fun x => negb (Z.even x)) (N / 3)) as Q.
      rewrite (Rabs_pos_eq (N / 3)) in Q by lra. specialize (Q ltac:(apply Rle_trans with (bpow radix2 0); [apply bpow_le; lia | change (bpow radix2 0) with 1; lra])).
      eapply Rle_trans; [exact Q |]. apply Rmult_le_compat_r; [lra |]. change (bpow radix2 (- (53) + 1)) with (/ 4503599627370496). lra. }
    set (r := round radix2 (SpecFloat.fexp 53 1024) ZnearestE (N / 3)) in *. pose proof (Rabs_le_inv _ _ E) as E'.
    rewrite Rlt_bool_true in C.
    2: { apply Rle_lt_trans with (bpow radix2 40); [| apply bpow_lt; reflexivity]. change (bpow radix2 40) with 1099511627776. apply Rabs_le. lra. }
    destruct C as (C1 & C2 & _). fold (b64_div mode_NE a b) in C1, C2. rewrite Fn in C2. change (Bdiv 53 1024 eq_refl eq_refl binop_nan_pl64 mode_NE a b) with (b64_div mode_NE a b) in *.
    destruct (narrow_val (b64_div mode_NE a b) C2) as [F B].
    { rewrite C1. apply Rle_trans with (bpow radix2 40); [| apply bpow_le; lia]. change (bpow radix2 40) with 1099511627776. apply Rabs_le. lra. }
    split; [exact F |]. rewrite C1 in B. rewrite (Rabs_pos_eq r) in B by lra. unfold u24 in B. pose proof eta_small. apply Rabs_le_inv in B. apply Rabs_le. lra.
  Qed.

  Lemma quot_ok : app (4 / 10000000 / N) (b32_div mode_NE (float_of_int (-1)) (softness n)) (- 3 / N).
  Proof.
    pose proof N_range as R. destruct soft_ok as [Fs Bs]. apply Rabs_le_inv in Bs. destruct (int_ok (-1) eq_refl) as [E1 F1].
    set (s := softness n) in *. set (S := b2r s) in *.
    assert (Rabs (-1 / S + 3 / N) <= 2 / 10000000 / N) as D.
    { replace (-1 / S + 3 / N) with ((S - N / 3) * (3 / (N * S))) by (field; lra). rewrite Rabs_mult, (Rabs_pos_eq (3 / (N * S))) by (left; apply Rdiv_lt_0_compat; nra).
      apply Rle_trans with (21 / 1000000000 * N * (3 / (N * S))); [apply Rmult_le_compat_r; [left; apply Rdiv_lt_0_compat; nra | apply Rabs_le; lra] |].
      replace (21 / 1000000000 * N * (3 / (N * S))) with (63 / 1000000000 / S) by (field; lra).
      apply Rmult_le_reg_r with (S * N); [nra |]. replace (63 / 1000000000 / S * (S * N)) with (63 / 1000000000 * N) by (field; lra).
      replace (2 / 10000000 / N * (S * N)) with (2 / 10000000 * S) by (field; lra). lra. }
    assert (0 < / N <= / 32) as IN by (split; [apply Rinv_0_lt_compat; lra | apply Rinv_le_contravar; lra]).
    assert (/ 1048576 <= / N) as IN2 by (apply Rinv_le_contravar; lra).
    unfold Rdiv in D. apply Rabs_le_inv in D.
    destruct (div_ok (float_of_int (-1)) s F1 ltac:(fold S; lra)) as [Ed Fd].
    { rewrite E1. fold S. pose proof bpow127. apply Rle_trans with 1; [| lra]. apply Rabs_le. unfold Rdiv. lra. }
    split; [exact Fd |]. rewrite E1 in Ed. fold S in Ed. pose proof (rnd_err (-1 / S)) as Q. rewrite <- Ed in Q. unfold u24 in Q. pose proof eta_small.
    assert (Rabs (-1 / S) <= 301 / 100 * / N) as M by (apply Rabs_le; unfold Rdiv; lra).
    set (q := b2r (b32_div mode_NE (float_of_int (-1)) s)) in *. clearbody q.
    assert (eta32 <= / 1000000000 * / N) as Et.
    { assert (eta32 <= bpow radix2 (-60)) as E6 by (unfold eta32; apply bpow_le; lia). change (bpow radix2 (-60)) with (/ 1152921504606846976) in E6. lra. }
    assert (Rabs (q - -1 / S) <= 19 / 100000000 * / N) as Q2 by lra. apply Rabs_le_inv in Q2. unfold Rdiv in *. apply Rabs_le. lra.
  Qed.

  Lemma inner_ok k : (1 <= k < n)%nat -> exists v, inner32 logf tbl log2 daz libm n k = Ok v /\
    app (N / 5000) v (softmin (N / 3) (approx1 gam n k) (approx2 n k)).
  Proof.
    intros Hk. pose proof N_range as R.
    destruct (fact_at (n - 1) ltac:(lia)) as (f & Ef & Af & Bf). destruct (fact_at (k - 1) ltac:(lia)) as (f1 & Ef1 & Af1 & Bf1).
    destruct (fact_at (n - k) ltac:(lia)) as (f2 & Ef2 & Af2 & Bf2).
    destruct stuff_ok as [Al Bl]. destruct square_ok as [Aq Bq]. pose proof soft_ok as As. pose proof quot_ok as Ad.
    unfold inner32. rewrite Ef. cbn [obind]. rewrite Ef1. cbn [obind]. rewrite Ef2. cbn [obind].
    assert (INR (k - 1) <= N /\ INR (n - k) <= N) as [K1 K2] by (split; apply le_INR; lia). pose proof (pos_INR (k - 1)) as P1. pose proof (pos_INR (n - k)) as P2.
    assert (Rabs (INR (k - 1)) <= N) as AK1 by (rewrite Rabs_pos_eq; lra). assert (Rabs (INR (n - k)) <= N) as AK2 by (rewrite Rabs_pos_eq; lra).
    assert (app (133 / 1000000 * N) (b32_plus mode_NE (b32_minus mode_NE f f1) (b32_mult mode_NE (float_of_int (Z.of_nat (k - 1))) (log_stuff logf n))) (approx1 gam n k)) as A1.
    { pose proof (app_minus _ _ _ _ _ _ (139 / 10 * N) Af Af1) as S1. specialize (S1 ltac:(split; [assert (Rabs (logfact (n - 1) - logfact (k - 1)) <= 1387 / 100 * N) by (apply Rabs_le; lra); lra | lra])).
      assert (app (1269 / 10000000 * N) (b32_minus mode_NE f f1) (logfact (n - 1) - logfact (k - 1))) as S1' by (apply (app_weaken _ _ _ _ S1); lra).
      pose proof (app_mult _ _ _ _ _ _ N (278 / 100) (app_nat (k - 1) ltac:(lia)) Al AK1 ltac:(rewrite Rabs_pos_eq; lra) ltac:(lra)) as S2.
      assert (app (42 / 10000000 * N) (b32_mult mode_NE (float_of_int (Z.of_nat (k - 1))) (log_stuff logf n)) (INR (k - 1) * ln (gam + ln (INR (n - 1))))) as S2' by (apply (app_weaken _ _ _ _ S2); lra).
      pose proof (app_plus _ _ _ _ _ _ (168 / 10 * N) S1' S2') as S3. unfold approx1. fold (logfact (n - 1)) (logfact (k - 1)).
      assert (0 <= INR (k - 1) * ln (gam + ln (INR (n - 1))) <= N * (278 / 100)) as M by (split; [apply Rmult_le_pos; lra | apply Rmult_le_compat; lra]).
      specialize (S3 ltac:(split; [| lra]; assert (Rabs (logfact (n - 1) - logfact (k - 1) + INR (k - 1) * ln (gam + ln (INR (n - 1)))) <= 1666 / 100 * N) by (apply Rabs_le; lra); lra)).
      apply (app_weaken _ _ _ _ S3). lra. }
    assert (Rabs (approx1 gam n k) <= 168 / 10 * N) as B1.
    { unfold approx1. fold (logfact (n - 1)) (logfact (k - 1)).
      assert (0 <= INR (k - 1) * ln (gam + ln (INR (n - 1))) <= N * (278 / 100)) as M by (split; [apply Rmult_le_pos; lra | apply Rmult_le_compat; lra]). apply Rabs_le. lra. }
    assert (app (72 / 1000000 * N) (b32_minus mode_NE (b32_mult mode_NE (float_of_int (Z.of_nat (n - k))) (log_n_squared_over_two logf n)) f2) (approx2 n k)) as A2.
    { pose proof (app_mult _ _ _ _ _ _ N (272 / 10) (app_nat (n - k) ltac:(lia)) Aq AK2 ltac:(rewrite Rabs_pos_eq; lra) ltac:(lra)) as S2.
      assert (app (6 / 1000000 * N) (b32_mult mode_NE (float_of_int (Z.of_nat (n - k))) (log_n_squared_over_two logf n)) (INR (n - k) * ln (N * N / 2))) as S2' by (apply (app_weaken _ _ _ _ S2); lra).
      assert (0 <= INR (n - k) * ln (N * N / 2) <= N * (272 / 10)) as M by (split; [apply Rmult_le_pos; lra | apply Rmult_le_compat; lra]).
      pose proof (app_minus _ _ _ _ _ _ (273 / 10 * N) S2' Af2) as S3. unfold approx2. fold (logfact (n - k)). fold N.
      specialize (S3 ltac:(split; [| lra]; assert (Rabs (INR (n - k) * ln (N * N / 2) - logfact (n - k)) <= 272 / 10 * N) by (apply Rabs_le; lra); lra)).
      apply (app_weaken _ _ _ _ S3). lra. }
    assert (Rabs (approx2 n k) <= 272 / 10 * N) as B2.
    { unfold approx2. fold (logfact (n - k)). fold N.
      assert (0 <= INR (n - k) * ln (N * N / 2) <= N * (272 / 10)) as M by (split; [apply Rmult_le_pos; lra | apply Rmult_le_compat; lra]). apply Rabs_le. lra. }
    set (x1 := b32_plus mode_NE (b32_minus mode_NE f f1) _) in *. set (x2 := b32_minus mode_NE (b32_mult mode_NE _ _) f2) in *. clearbody x1 x2.
    set (q := b32_div mode_NE (float_of_int (-1)) (softness n)) in *. clearbody q.
    assert (0 < / N) as IN by (apply Rinv_0_lt_compat; lra).
    assert (forall x X e C, 0 <= e <= 14 / 100000 -> 0 <= C <= 272 / 10 -> app (e * N) x X -> Rabs X <= C * N ->
      app (3 * e + C * (4 / 10000000) + e * / 1000000 + / 100000 ) (b32_mult mode_NE q x) (- X / (N / 3))) as P.
    { intros x X e C He HC Hx HX. assert (Rabs (- 3 / N) <= 3 * / N) as Q3 by (unfold Rdiv; rewrite Rabs_mult, (Rabs_pos_eq (/ N)), (Rabs_left (- 3)) by lra; lra).
      pose proof (app_mult _ _ _ _ _ _ (3 * / N) (C * N) Ad Hx Q3 HX) as S.
      assert (4 / 10000000 / N * (C * N) = C * (4 / 10000000)) as E1 by (field; lra). assert (e * N * (3 * / N) = 3 * e) as E2 by (field; lra).
      assert (4 / 10000000 / N * (e * N) = e * (4 / 10000000)) as E3 by (field; lra). assert (3 * / N * (C * N) = 3 * C) as E4 by (field; lra).
      rewrite E1, E2, E3, E4 in S. specialize (S ltac:(lra)). replace (- X / (N / 3)) with (- 3 / N * X) by (field; lra).
      apply (app_weaken _ _ _ _ S). lra. }
    pose proof (P x1 (approx1 gam n k) (134 / 1000000) (168 / 10) ltac:(lra) ltac:(lra) (app_weaken _ (134 / 1000000 * N) _ _ A1 ltac:(lra)) B1) as P1'.
    pose proof (P x2 (approx2 n k) (72 / 1000000) (272 / 10) ltac:(lra) ltac:(lra) A2 B2) as P2'.
    set (p1 := b32_mult mode_NE q x1) in *. set (p2 := b32_mult mode_NE q x2) in *. clearbody p1 p2.
    assert (forall X C, Rabs X <= C * N -> Rabs (- X / (N / 3)) <= 3 * C) as QB.
    { intros X C H. replace (- X / (N / 3)) with (- (X * (3 * / N))) by (field; lra). rewrite Rabs_Ropp, Rabs_mult, (Rabs_pos_eq (3 * / N)) by lra.
      apply Rle_trans with (C * N * (3 * / N)); [apply Rmult_le_compat_r; lra |]. replace (C * N * (3 * / N)) with (3 * C) by (field; lra). lra. }
    pose proof (QB _ _ B1) as Q1. pose proof (QB _ _ B2) as Q2. set (X1 := - approx1 gam n k / (N / 3)) in *. set (X2 := - approx2 n k / (N / 3)) in *.
    destruct P1' as [Fp1 Hp1]. destruct P2' as [Fp2 Hp2].
    assert (Rabs (b2r p1 - X1) <= 422 / 1000000) as Hp1' by lra. assert (Rabs (b2r p2 - X2) <= 422 / 1000000) as Hp2' by lra.
    pose proof (Rabs_le_inv _ _ Hp1') as I1. pose proof (Rabs_le_inv _ _ Hp2') as I2. pose proof (Rabs_le_inv _ _ Q1) as J1. pose proof (Rabs_le_inv _ _ Q2) as J2.
    assert (Rabs (b2r p1) <= 82) as M1 by (apply Rabs_le; lra). assert (Rabs (b2r p2) <= 82) as M2 by (apply Rabs_le; lra).
    destruct (fast_lse_b32 tbl log2 p1 p2 HT HG Fp1 Fp2 ltac:(lra) ltac:(lra)) as (l & El & Fl & Hl).
    exists (b32_mult mode_NE (b32_opp (softness n)) l). split; [exact (obind_ok _ _ _ El) |]. clear El.
    assert (Rmax (Rabs (b2r p1)) (Rabs (b2r p2)) <= 82) as MM by (apply Rmax_lub; lra).
    assert (Rabs (ln (exp (b2r p1) + exp (b2r p2)) - ln (exp X1 + exp X2)) <= 422 / 1000000) as D by (apply ln_plus; try apply exp_pos; rewrite !ln_exp; lra).
    set (L := ln (exp X1 + exp X2)) in *.
    assert (app (533 / 1000000) l L) as AL. { split; [exact Fl |]. apply Rabs_le_inv in Hl. apply Rabs_le_inv in D. apply Rabs_le. lra. }
    assert (Rabs L <= 83) as BL.
    { unfold L. rewrite lse_shift. assert (Rabs (Rmax X1 X2) <= 816 / 10) as U. { destruct (Rle_or_lt X1 X2) as [G | G]; [rewrite Rmax_right by lra | rewrite Rmax_left by lra]; apply Rabs_le; lra. }
      assert (0 <= ln (1 + exp (Rmin X1 X2 - Rmax X1 X2)) <= 1) as V.
      { set (e := exp (Rmin X1 X2 - Rmax X1 X2)). assert (0 < e <= 1) as He.
        { unfold e. split; [apply exp_pos |]. rewrite <- exp_0. apply exp_le. pose proof (Rmin_l X1 X2). pose proof (Rmax_l X1 X2). lra. }
        split; [rewrite <- ln_1; apply ln_le'; lra |]. pose proof (ln_sub 1 (1 + e) ltac:(lra) ltac:(lra)) as W. rewrite ln_1 in W. lra. }
      apply Rabs_le_inv in U. apply Rabs_le. lra. }
    assert (app (21 / 1000000000 * N) (b32_opp (softness n)) (- (N / 3))) as AO.
    { destruct As as [Fs Bs]. split.
      - unfold b32_opp. rewrite is_finite_Bopp. exact Fs.
      - assert (b2r (b32_opp (softness n)) = - b2r (softness n)) as -> by (unfold b2r, b32_opp; apply B2R_Bopp). replace (- b2r (softness n) - - (N / 3)) with (- (b2r (softness n) - N / 3)) by ring. rewrite Rabs_Ropp. exact Bs. }
    pose proof (app_mult _ _ _ _ _ _ (N / 3) 83 AO AL ltac:(rewrite Rabs_Ropp, Rabs_pos_eq; lra) BL ltac:(lra)) as S.
    unfold softmin. fold X1 X2. fold L. apply (app_weaken _ _ _ _ S). lra.
  Qed.
End Point.

Section Rows.
  Variables (expf logf : binary32 -> binary32) (tbl : list Z) (log2 : binary32 -> binary32) (daz : bool) (libm : binary32 -> binary32).
  Hypothesis HE : good_expf expf.
  Hypothesis HL : good_logf logf.
  Hypothesis HT : faithful_table tbl.
  Hypothesis HG : good_log2 log2.

  Lemma row_approx_good n buf : (32 <= Z.of_nat n <= 1048576)%Z -> length buf = S n ->
    exists row, row_approx32 logf tbl log2 daz libm n buf = Ok row /\ near_row n row (map (st1 n) (seq 0 (S n))).
  Proof.
    intros Hn HB. unfold row_approx32. rewrite vset_ok by lia. cbn [obind]. rewrite vset_ok by (rewrite length_upd; lia). cbn [obind].
    set (buf0 := upd (upd buf 0 b_minf) n b_zero). assert (length buf0 = S n) as L0 by (unfold buf0; rewrite !length_upd; exact HB).
    set (f := fun k (_ : binary32) => match inner32 logf tbl log2 daz libm n k with Ok v => v | _ => b_zero end).
    assert (forall k, (1 <= k < n)%nat -> inner32 logf tbl log2 daz libm n k = Ok (f k b_zero) /\ app (INR n / 5000) (f k b_zero) (softmin (INR n / 3) (approx1 gam n k) (approx2 n k))) as I.
    { intros k Hk. destruct (inner_ok logf tbl log2 daz libm HL HT HG n Hn k Hk) as (v & E & A). unfold f. rewrite E. split; [reflexivity | exact A]. }
    clearbody f.
    destruct (vfor_upd (fun k buf => let* v := inner32 logf tbl log2 daz libm n k in vset buf k v) (fun k _ => f k b_zero) (n - 1) 1 buf0) as (r & Er & Lr & Nin & Nout).
    - lia.
    - intros i l' x Hi HL' _ _. etransitivity; [exact (obind_ok _ _ _ (proj1 (I i ltac:(lia)))) |]. apply vset_ok. lia.
    - exists r. split; [exact Er |]. split; [lia |]. split; [| split].
      + rewrite Nout by lia. unfold buf0. rewrite nth_error_upd_ne by lia. apply nth_error_upd_eq. lia.
      + exists b_zero. destruct (int_ok 0 eq_refl) as [E F]. split; [| split; [exact F | exact E]]. rewrite Nout by lia. unfold buf0. apply nth_error_upd_eq. rewrite length_upd. lia.
      + intros k s Hk Hs. exists (f k b_zero). destruct (I k Hk) as [_ [Fv Av]].
        destruct (nth_error buf0 k) as [x |] eqn:Ex; [| apply nth_error_None in Ex; lia].
        split; [apply (Nin k x); [lia | exact Ex] |]. split; [exact Fv |]. split; [exact Av |].
        rewrite nth_error_map in Hs. rewrite (nth_error_nth' (seq 0 (S n)) O) in Hs by (rewrite seq_length; lia). rewrite seq_nth in Hs by lia. injection Hs as <-.
        destruct gam_val as [G _]. cbn [Nat.add]. pose proof (soft_bracket gam n k ltac:(lra) ltac:(lia) Hk) as B. apply Rabs_le_inv in Av. pose proof (pos_INR n). lra.
  Qed.

  Definition row_spec (n : nat) (row : list binary32) : Prop :=
    ((n < 32)%nat -> log_row (INR n / 50000) n row) /\ ((32 <= n)%nat -> exists c, stirling_row n c /\ near_row n row c).

  Lemma calls_good calls : List.Forall (fun call => (Z.of_nat (fst call) <= 1048576)%Z) calls -> forall cache, good_cache cache -> exists cache' rows,
    stirling_calls32 expf logf tbl log2 daz libm calls cache = Ok (cache', rows) /\ List.Forall2 (fun call row => row_spec (fst call) row) calls rows.
  Proof.
    intros H. induction H as [| [n buf] calls Hn _ IH]; intros cache HC; cbn [stirling_calls32].
    - exists cache, []. split; [reflexivity | constructor].
    - cbn [fst] in Hn. unfold stirling1_row32. destruct (Nat.ltb_spec n 32) as [L | L].
      + destruct (row_exact_good expf logf HE HL n cache (resize32 buf (n + 1)) L HC) as (c1 & row & E & G & R); [rewrite resize32_len; lia |].
        rewrite E. cbn [obind]. destruct (IH c1 G) as (c2 & rows & E2 & F2). rewrite E2. cbn [obind]. exists c2, (row :: rows). split; [reflexivity |].
        constructor; [| exact F2]. cbn [fst]. split; [intros _; now apply good_row_log | lia].
      + destruct (row_approx_good n (resize32 buf (n + 1)) ltac:(lia)) as (row & E & R); [rewrite resize32_len; lia |].
        rewrite E. cbn [obind]. destruct (IH cache HC) as (c2 & rows & E2 & F2). rewrite E2. cbn [obind]. exists c2, (row :: rows). split; [reflexivity |].
        constructor; [| exact F2]. cbn [fst]. split; [lia | intros _]. exists (map (st1 n) (seq 0 (S n))). split; [apply st1_row | exact R].
  Qed.
End Rows.
