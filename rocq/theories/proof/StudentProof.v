(** Student's t distribution in single precision. *)
From Coq Require Import Reals Lra ZArith Lia List.
From Flocq Require Import Core BinarySingleNaN Binary Bits.
From Verif.model Require Import Base Num FastExp FloatNum FastLog Special FastLgamma NICH Student.
From Verif.spec Require Import LogSpec DrawSpec SpecialSpec StudentSpec.
From Verif.proof Require Import LnBounds PiBound LgammaBound FastExpProof FloatScoresProof FastLogProof SpecialProof FloatNichPost FloatRel FloatStirlingApprox.
From Verif.props Require Import FastLgammaProps.
Local Open Scope R_scope.

(** Relative error [h] and absolute error [t]. *)
Definition rel (h t : R) (x : binary32) (X : R) : Prop := fin x = true /\ 0 <= b2r x /\ 0 <= X /\ Rabs (b2r x - X) <= h * X + t.

Lemma rnd_nonneg x : 0 <= x -> 0 <= rnd x.
Proof. intros H. rewrite <- rnd_0. now apply rnd_le. Qed.
Lemma eta_bp : eta32 = bpow radix2 (-150).
Proof. reflexivity. Qed.

Lemma rel_square (v m : binary32) : fin v = true -> fin m = true -> Rabs (b2r v) <= bpow radix2 30 -> Rabs (b2r m) <= bpow radix2 30 ->
  rel (4 * u24) (bpow radix2 (-110)) (b32_mult mode_NE (b32_minus mode_NE v m) (b32_minus mode_NE v m)) ((b2r v - b2r m) ^ 2) /\
  (b2r v - b2r m) ^ 2 <= bpow radix2 62.
Proof.
  intros Fv Fm Hv Hm. set (D := b2r v - b2r m). assert (Rabs D <= bpow radix2 31) as HD.
  { unfold D, Rminus. eapply Rle_trans; [apply Rabs_triang |]. rewrite Rabs_Ropp. change (bpow radix2 31) with 2147483648. change (bpow radix2 30) with 1073741824 in *. lra. }
  assert (D ^ 2 = Rabs D * Rabs D) as D2 by (rewrite <- Rabs_mult, Rabs_pos_eq; [ring | apply Rle_0_sqr]).
  assert (0 <= D ^ 2 <= bpow radix2 62) as R2.
  { rewrite D2. pose proof (Rabs_pos D). split; [nra |]. change 62%Z with (31 + 31)%Z. rewrite bpow_plus. apply Rmult_le_compat; lra. }
  destruct (minus_ok v m Fv Fm) as [Ed Fd]; [fold D; eapply Rle_trans; [exact HD | apply bpow_le; lia] |]. fold D in Ed.
  set (d := b32_minus mode_NE v m) in *. clearbody d. pose proof (rnd_err D) as RD. rewrite <- Ed in RD.
  pose proof eta32_pos as Eta. assert (0 < eta32) as E0 by lra.
  assert (eta32 <= bpow radix2 (-110) / 1000000000000) as E1.
  { rewrite eta_bp. change (-150)%Z with (-110 + -40)%Z. rewrite bpow_plus. unfold Rdiv. apply Rmult_le_compat_l; [apply bpow_ge_0 |]. change (bpow radix2 (-40)) with (/ 1099511627776). apply Rinv_le_contravar; lra. }
  set (a := Rabs D) in *. assert (0 <= a) as A0 by apply Rabs_pos. change (bpow radix2 31) with 2147483648 in HD.
  assert (Rabs (b2r d * b2r d - D ^ 2) <= (2 * u24 + u24 * u24) * D ^ 2 + 5000000000 * eta32) as H1.
  { replace (b2r d * b2r d - D ^ 2) with (2 * (D * (b2r d - D)) + (b2r d - D) * (b2r d - D)) by ring. eapply Rle_trans; [apply Rabs_triang |]. rewrite !Rabs_mult. rewrite (Rabs_pos_eq 2) by lra. fold a. rewrite D2.
    set (x := Rabs (b2r d - D)) in *. assert (0 <= x) as X0 by apply Rabs_pos. unfold u24 in *.
    assert (a * x <= a * (/ 16777216 * a + eta32)) by (apply Rmult_le_compat_l; lra).
    assert (x * x <= (/ 16777216 * a + eta32) * (/ 16777216 * a + eta32)) by (apply Rmult_le_compat; lra).
    assert (a * eta32 <= 2147483648 * eta32) by (apply Rmult_le_compat_r; lra).
    assert (eta32 * eta32 <= / 1000000000000 * eta32) by (apply Rmult_le_compat_r; lra). nra. }
  assert (Rabs (b2r d * b2r d) <= bpow radix2 127) as M.
  { apply Rle_trans with (3 * bpow radix2 62); [| change 3 with (IZR 3); apply Rle_trans with (bpow radix2 2 * bpow radix2 62); [apply Rmult_le_compat_r; [apply bpow_ge_0 | cbn; lra] | rewrite <- bpow_plus; apply bpow_le; lia]].
    replace (b2r d * b2r d) with (D ^ 2 + (b2r d * b2r d - D ^ 2)) by ring. eapply Rle_trans; [apply Rabs_triang |]. rewrite (Rabs_pos_eq (D ^ 2)) by lra.
    assert (1 <= bpow radix2 62) by (apply (bpow_le radix2 0 62); lia). unfold u24 in H1. lra. }
  destruct (mult_ok d d Fd Fd M) as [Es Fs]. split; [| lra]. split; [exact Fs |]. split; [rewrite Es; apply rnd_nonneg, Rle_0_sqr |]. split; [lra |].
  pose proof (rnd_err (b2r d * b2r d)) as RS. rewrite <- Es in RS. rewrite (Rabs_pos_eq (b2r d * b2r d)) in RS by apply Rle_0_sqr.
  unfold u24 in *. apply Rabs_le_inv in RS. apply Rabs_le_inv in H1. pose proof (bpow_gt_0 radix2 (-110)). apply Rabs_le. lra.
Qed.

Lemma rel_mult h g t p P s S : rel h 0 p P -> rel g t s S -> 0 <= h <= 20 * u24 -> 0 <= g <= 20 * u24 -> 0 <= t <= / 4 -> P <= bpow radix2 40 -> S <= bpow radix2 64 ->
  rel (h + g + 2 * u24) (t * bpow radix2 41 + bpow radix2 (-149)) (b32_mult mode_NE p s) (P * S).
Proof.
  intros (Fp & P0 & P1 & HP) (Fs & S0 & S1 & HS) Hh Hg Ht BP BS. rewrite Rplus_0_r in HP.
  assert (0 <= P * S) as PS by now apply Rmult_le_pos.
  assert (P * t <= bpow radix2 40 * t) as PT by (apply Rmult_le_compat_r; lra).
  assert (bpow radix2 41 = 2 * bpow radix2 40) as B41 by (change 41%Z with (1 + 40)%Z; rewrite bpow_plus; reflexivity).
  assert (Rabs (b2r p * b2r s - P * S) <= (h + g + h * g) * (P * S) + (1 + h) * (P * t)) as H1.
  { replace (b2r p * b2r s - P * S) with (P * (b2r s - S) + (b2r p - P) * S + (b2r p - P) * (b2r s - S)) by ring.
    eapply Rle_trans; [apply Rabs_triang |]. pose proof (Rabs_triang (P * (b2r s - S)) ((b2r p - P) * S)) as T. rewrite !Rabs_mult in *. rewrite (Rabs_pos_eq P), (Rabs_pos_eq S) in * by lra.
    assert (P * Rabs (b2r s - S) <= P * (g * S + t)) by (apply Rmult_le_compat_l; lra). assert (Rabs (b2r p - P) * S <= h * P * S) by (apply Rmult_le_compat_r; lra).
    assert (Rabs (b2r p - P) * Rabs (b2r s - S) <= h * P * (g * S + t)) by (apply Rmult_le_compat; try apply Rabs_pos; lra). nra. }
  assert (h * g <= u24 / 10000) as HG.
  { apply Rle_trans with (20 * u24 * (20 * u24)); [apply Rmult_le_compat; lra | unfold u24; lra]. }
  assert (0 <= h * g) by (apply Rmult_le_pos; lra). unfold u24 in *.
  assert ((h + g + h * g) * (P * S) <= / 1000 * (P * S)) as Q1 by (apply Rmult_le_compat_r; lra).
  assert (0 <= P * t) as PT0 by (apply Rmult_le_pos; lra).
  assert ((1 + h) * (P * t) <= 1001 / 1000 * (P * t)) as Q2 by (apply Rmult_le_compat_r; lra).
  assert (b2r p * b2r s <= 2 * (P * S) + 2 * (P * t)) as M by (apply Rabs_le_inv in H1; lra).
  assert (0 <= b2r p * b2r s) as M0 by now apply Rmult_le_pos.
  assert (P * S <= bpow radix2 104) as BPS by (change 104%Z with (40 + 64)%Z; rewrite bpow_plus; apply Rmult_le_compat; lra).
  assert (Rabs (b2r p * b2r s) <= bpow radix2 127) as MM.
  { rewrite Rabs_pos_eq by exact M0. assert (bpow radix2 40 * t <= bpow radix2 104).
    { apply Rle_trans with (bpow radix2 40 * 1); [apply Rmult_le_compat_l; [apply bpow_ge_0 | lra] | rewrite Rmult_1_r; apply bpow_le; lia]. }
    assert (4 * bpow radix2 104 <= bpow radix2 127) by (change 4 with (bpow radix2 2); rewrite <- bpow_plus; apply bpow_le; lia). lra. }
  destruct (mult_ok p s Fp Fs MM) as [E F]. split; [exact F |]. split; [rewrite E; now apply rnd_nonneg |]. split; [exact PS |].
  pose proof (rnd_err (b2r p * b2r s)) as R. rewrite <- E, (Rabs_pos_eq _ M0) in R. unfold u24 in R.
  assert (eta32 <= bpow radix2 (-149)) by (apply bpow_le; lia). rewrite B41.
  assert ((h + g + h * g) * (P * S) + / 16777216 * (1 + h + g + h * g) * (P * S) <= (h + g + 2 * / 16777216) * (P * S)).
  { rewrite <- Rmult_plus_distr_r. apply Rmult_le_compat_r; [exact PS |]. lra. }
  apply Rabs_le_inv in R. apply Rabs_le_inv in H1. apply Rabs_le. nra.
Qed.

Lemma rel_div h t x X (nu : binary32) : rel h t x X -> fin nu = true -> / 16 <= b2r nu -> 0 <= h <= 20 * u24 -> 0 <= t <= / 4 -> X <= bpow radix2 110 ->
  rel (h + 2 * u24) (t * 32 + bpow radix2 (-149)) (b32_div mode_NE x nu) (X / b2r nu).
Proof.
  intros (Fx & X0 & X1 & HX) Fn Hn Hh Ht BX. set (i := / b2r nu). assert (0 < i <= 16) as Hi.
  { unfold i. split; [apply Rinv_0_lt_compat; lra |]. replace 16 with (/ / 16) by field. apply Rinv_le_contravar; lra. }
  assert (0 <= X * i) as XI by (apply Rmult_le_pos; lra). assert (0 <= b2r x * i) as xI by (apply Rmult_le_pos; lra).
  assert (Rabs (b2r x * i - X * i) <= h * (X * i) + 16 * t) as H1.
  { rewrite <- Rmult_minus_distr_r, Rabs_mult, (Rabs_pos_eq i) by lra. apply Rle_trans with ((h * X + t) * i); [apply Rmult_le_compat_r; lra |].
    assert (t * i <= t * 16) by (apply Rmult_le_compat_l; lra). lra. }
  assert (X * i <= bpow radix2 114) as B by (change 114%Z with (110 + 4)%Z; rewrite bpow_plus; apply Rmult_le_compat; try lra; cbn; lra).
  unfold u24 in *. assert (h * (X * i) <= / 1000 * (X * i)) by (apply Rmult_le_compat_r; lra).
  assert (Rabs (b2r x / b2r nu) <= bpow radix2 127) as MM.
  { unfold Rdiv. fold i. rewrite Rabs_pos_eq by exact xI. assert (4 * bpow radix2 114 <= bpow radix2 127) by (change 4 with (bpow radix2 2); rewrite <- bpow_plus; apply bpow_le; lia).
    assert (16 <= bpow radix2 114) by (change 16 with (bpow radix2 4); apply bpow_le; lia). apply Rabs_le_inv in H1. lra. }
  destruct (div_ok x nu Fx ltac:(lra) MM) as [E F]. unfold Rdiv in E. fold i in E. unfold rel, Rdiv. fold i.
  split; [exact F |]. split; [rewrite E; now apply rnd_nonneg |]. split; [exact XI |].
  pose proof (rnd_err (b2r x * i)) as R. rewrite <- E, (Rabs_pos_eq _ xI) in R. unfold u24 in R.
  assert (eta32 <= bpow radix2 (-149)) by (apply bpow_le; lia). apply Rabs_le_inv in R. apply Rabs_le_inv in H1. apply Rabs_le. lra.
Qed.

Lemma near_rel k x X : near k x X -> k <= 9 -> rel (21 / 10 * k * u24) 0 x X.
Proof.
  intros (F & P & Q & K & H) K9. split; [exact F |]. split; [lra |]. split; [lra |].
  set (z := ln (b2r x) - ln X) in *. assert (b2r x = X * exp z) as E.
  { unfold z, Rminus. rewrite exp_plus, exp_Ropp, !exp_ln by lra. field. lra. }
  assert (Rabs z <= 9 * e23) as Z9 by (eapply Rle_trans; [exact H | apply Rmult_le_compat_r; [unfold e23; lra | lra]]). unfold e23 in *.
  assert (Rabs (exp z - 1) <= 1001 / 1000 * Rabs z) as Z1 by (apply near_one; apply Rabs_le_inv in Z9; lra).
  replace (b2r x - X) with (X * (exp z - 1)) by (rewrite E; ring). rewrite Rabs_mult, Rabs_pos_eq by lra. unfold u24.
  apply Rle_trans with (X * (21 / 10 * k * / 16777216)); [apply Rmult_le_compat_l; lra | lra].
Qed.

(** log (1 + w) *)
Lemma one_plus_log log2 h t w W : good_log2 log2 -> rel h t w W -> 0 <= h <= 20 * u24 -> 0 <= t <= bpow radix2 (-50) -> W <= bpow radix2 105 ->
  app (75 / 1000000) (fast_log32 log2 (b32_plus mode_NE (float_of_int 1) w)) (ln (1 + W)) /\ 0 <= ln (1 + W) <= 74.
Proof.
  intros HG (Fw & W0 & W1 & HW) Hh Ht BW. destruct (int_ok 1 ltac:(lia)) as [E1 F1].
  assert (0 <= ln (1 + W)) as L0 by (rewrite <- ln_1; apply ln_le'; lra).
  assert (usual (1 + W)) as U.
  { split; [apply Rle_trans with (bpow radix2 0); [apply bpow_le; lia | cbn; lra] |].
    assert (2 * bpow radix2 105 <= bpow radix2 110) by (change 2 with (bpow radix2 1); rewrite <- bpow_plus; apply bpow_le; lia).
    assert (1 <= bpow radix2 105) by (apply (bpow_le radix2 0 105); lia). lra. }
  assert (ln (1 + W) <= 74) as L1.
  { apply Rle_trans with (ln (bpow radix2 106)).
    - apply ln_le'; [lra |]. change 106%Z with (1 + 105)%Z. rewrite bpow_plus. change (bpow radix2 1) with 2. assert (1 <= bpow radix2 105) by (apply (bpow_le radix2 0 105); lia). lra.
    - rewrite bpow_exp, ln_exp. pose proof ln2_hi. change (IZR radix2) with 2. lra. }
  split; [| lra].
  assert (t <= / 1000000000000000) as T by (eapply Rle_trans; [apply Ht |]; change (bpow radix2 (-50)) with (/ 1125899906842624); lra).
  unfold u24 in *. assert (h * W <= / 1000 * W) by (apply Rmult_le_compat_r; lra). apply Rabs_le_inv in HW.
  assert (b2r w <= 2 * W + 1) as w2 by lra.
  assert (Rabs (1 + b2r w) <= bpow radix2 127) as M.
  { rewrite Rabs_pos_eq by lra. destruct U as [_ U]. assert (4 * bpow radix2 110 <= bpow radix2 127) by (change 4 with (bpow radix2 2); rewrite <- bpow_plus; apply bpow_le; lia). lra. }
  destruct (plus_ok (float_of_int 1) w F1 Fw ltac:(rewrite E1; exact M)) as [E F]. rewrite E1 in E.
  pose proof (rnd_err (1 + b2r w)) as R. rewrite <- E, (Rabs_pos_eq (1 + b2r w)) in R by lra. unfold u24 in R. pose proof eta32_pos.
  set (y := b32_plus mode_NE (float_of_int 1) w) in *. clearbody y.
  assert (Rabs (b2r y - (1 + W)) <= 22 / 16777216 * (1 + W)) as Y.
  { apply Rabs_le_inv in R. assert (h * W <= 20 * / 16777216 * W) by (apply Rmult_le_compat_r; lra). apply Rabs_le. lra. }
  destruct (ln_ratio (1 + W) (b2r y) (22 / 16777216) ltac:(lra) ltac:(lra) Y) as [PY LY].
  assert (near 12 y (1 + W)) as NY.
  { split; [exact F |]. split; [exact PY |]. split; [lra |]. split; [lra |]. eapply Rle_trans; [exact LY |]. unfold e23. lra. }
  destruct (near_log log2 12 y (1 + W) HG NY U) as [FL BL]. split; [exact FL |]. unfold log_band, e23 in BL. apply Rabs_le. lra.
Qed.

(** The coefficient -(nu+1)/2, and the last two operations. *)
Lemma assemble (nu hf s l : binary32) S L : fin nu = true -> / 16 <= b2r nu <= bpow radix2 24 -> fin hf = true -> b2r hf = / 2 ->
  app (161 / 10000) s S -> Rabs S <= 90 -> app (75 / 1000000) l L -> 0 <= L <= 74 ->
  app (162 / 10000 + 47 / 1000000 * (b2r nu + 1))
    (b32_plus mode_NE s (b32_mult mode_NE (b32_minus mode_NE (b32_mult mode_NE (b32_opp hf) nu) hf) l)) (S - (b2r nu + 1) / 2 * L).
Proof.
  intros Fn Hn Fh Eh As BS Al BL. set (n1 := (b2r nu + 1) / 2). change (bpow radix2 24) with 16777216 in Hn.
  assert (fin (b32_opp hf) = true /\ b2r (b32_opp hf) = - / 2) as [Fo Eo].
  { unfold b32_opp. rewrite is_finite_Bopp, B2R_Bopp, Eh. split; [exact Fh | reflexivity]. }
  destruct (mult_ok (b32_opp hf) nu Fo Fn) as [E1 F1]; [rewrite Eo; apply small127; apply Rabs_le; lra |]. rewrite Eo in E1.
  pose proof (rnd_err (- / 2 * b2r nu)) as R1. rewrite <- E1, (Rabs_left (- / 2 * b2r nu)) in R1 by lra. unfold u24 in R1. pose proof eta32_pos as Eta. apply Rabs_le_inv in R1.
  set (m := b32_mult mode_NE (b32_opp hf) nu) in *. clearbody m.
  destruct (minus_ok m hf F1 Fh) as [E2 F2]; [rewrite Eh; apply small127; apply Rabs_le; lra |]. rewrite Eh in E2.
  pose proof (rnd_err (b2r m - / 2)) as R2. rewrite <- E2 in R2. unfold u24 in R2.
  assert (Rabs (b2r m - / 2) <= 1001 / 1000 * n1) as A1 by (unfold n1; apply Rabs_le; lra).
  assert (app (13 / 100000000 * n1) (b32_minus mode_NE m hf) (- n1)) as Ac.
  { split; [exact F2 |]. apply Rabs_le_inv in R2. unfold n1 in *. apply Rabs_le. lra. }
  assert (0 < n1 <= 8388609) as N1 by (unfold n1; lra).
  pose proof (app_mult _ _ _ _ _ _ n1 74 Ac Al ltac:(rewrite Rabs_Ropp, Rabs_pos_eq; lra) ltac:(rewrite Rabs_pos_eq; lra) ltac:(lra)) as Am.
  eapply app_weaken in Am; [| instantiate (1 := 894 / 10000000 * n1 + / 1000000000); lra].
  set (c := b32_mult mode_NE (b32_minus mode_NE m hf) l) in *. clearbody c.
  assert (- n1 * L = - (n1 * L)) as EQ by ring. rewrite EQ in Am. unfold Rminus.
  assert (0 <= n1 * L <= n1 * 74) as NL by (split; [apply Rmult_le_pos; lra | apply Rmult_le_compat_l; lra]).
  assert (Rabs (S + - (n1 * L)) <= 90 + n1 * 74) as B.
  { eapply Rle_trans; [apply Rabs_triang |]. rewrite Rabs_Ropp, (Rabs_pos_eq (n1 * L)) by lra. lra. }
  pose proof (app_plus s c S (- (n1 * L)) _ _ (91 + n1 * 75) As Am ltac:(lra)) as Ap.
  eapply app_weaken; [exact Ap |]. unfold n1 in *. lra.
Qed.

Lemma lit_vals : fin (lit32 1 2) = true /\ b2r (lit32 1 2) = / 2 /\ lit32 1 1 = float_of_int 1 /\ lit32 0 1 = float_of_int 0 /\
  fin (lit32 314159265358979 100000000000000) = true /\ b2r (lit32 314159265358979 100000000000000) = 13176795 / 4194304.
Proof.
  assert (B2FF 24 128 (lit32 1 2) = F754_finite false 8388608 (-24)) as Q1 by (vm_compute; reflexivity).
  assert (B2FF 24 128 (lit32 314159265358979 100000000000000) = F754_finite false 13176795 (-22)) as Q2 by (vm_compute; reflexivity).
  split; [rewrite <- is_finite_B2FF, Q1; reflexivity |].
  split; [rewrite <- FF2R_B2FF, Q1; unfold FF2R, F2R; cbn [Fnum Fexp cond_Zopp]; change (bpow radix2 (-24)) with (/ 16777216); lra |].
  split; [apply (B2FF_inj 24 128); vm_compute; reflexivity |]. split; [apply (B2FF_inj 24 128); vm_compute; reflexivity |].
  split; [rewrite <- is_finite_B2FF, Q2; reflexivity |].
  rewrite <- FF2R_B2FF, Q2; unfold FF2R, F2R; cbn [Fnum Fexp cond_Zopp]; change (bpow radix2 (-22)) with (/ 4194304); lra.
Qed.
Lemma near_pi : near 1 (lit32 314159265358979 100000000000000) PI.
Proof.
  destruct lit_vals as (_ & _ & _ & _ & F & E). pose proof pi_15 as [L U]. split; [exact F |]. rewrite E. split; [lra |]. split; [lra |]. split; [lra |].
  destruct (ln_ratio PI (13176795 / 4194304) (/ 16777216) ltac:(lra) ltac:(lra)) as [_ H]; [apply Rabs_le; lra |].
  eapply Rle_trans; [exact H |]. unfold e23. lra.
Qed.

(** The values of log-gamma that occur. *)
Lemma nu_range lg nu : is_log_gamma lg -> / 16 <= nu <= bpow radix2 24 -> Rabs (lg ((nu + 1) / 2) - lg (nu / 2)) <= 41.
Proof.
  intros HG Hn. change (bpow radix2 24) with 16777216 in Hn. pose proof (e_range lg HG (nu / 2) ltac:(lra)) as E. unfold e in E. replace (nu / 2 + / 2) with ((nu + 1) / 2) in E by field.
  assert (/ (nu / 2) <= 32) as I by (replace 32 with (/ / 32) by field; apply Rinv_le_contravar; lra).
  assert (ln (nu / 2) <= 18) as U.
  { apply Rle_trans with (ln (bpow radix2 24)); [apply ln_le'; [lra |]; change (bpow radix2 24) with 16777216; lra |].
    rewrite bpow_exp, ln_exp. pose proof ln2_hi. change (IZR radix2) with 2. lra. }
  assert (-4 <= ln (nu / 2)) as L.
  { apply Rle_trans with (ln (bpow radix2 (-5))); [| apply ln_le'; [apply bpow_gt_0 | change (bpow radix2 (-5)) with (/ 32); lra]].
    rewrite bpow_exp, ln_exp. pose proof ln2_hi. change (IZR radix2) with 2. change (IZR (-5)) with (-5). lra. }
  apply Rabs_le. lra.
Qed.
Lemma nu_ok lg libm (nu : binary32) : is_log_gamma lg -> fin nu = true -> / 16 <= b2r nu <= bpow radix2 24 ->
  app (16 / 1000) (lgamma_nu32 libm nu) (lg ((b2r nu + 1) / 2) - lg (b2r nu / 2)).
Proof.
  intros HG Fn Hn. destruct (C86_fast_lgamma_nu lg libm nu HG Fn) as [H _]. unfold lgamma_nu32.
  destruct (H ltac:(split; [apply Hn | apply Rle_lt_trans with (bpow radix2 24); [apply Hn | apply bpow_lt; lia]])) as (r & -> & F & A). cbn [or_nan].
  split; [exact F |]. now replace ((b2r nu + 1) / 2) with (b2r nu / 2 + / 2) by field.
Qed.

(** The part that does not depend on the value. *)
Lemma constant_ok lg log2 k (z nu hf q : binary32) X : is_log_gamma lg -> good_log2 log2 -> fin nu = true -> / 16 <= b2r nu <= bpow radix2 24 ->
  fin hf = true -> b2r hf = / 2 -> near k q X -> k <= 12 -> usual X -> app (16003 / 1000000) z (lg ((b2r nu + 1) / 2) - lg (b2r nu / 2)) ->
  app (161 / 10000) (b32_plus mode_NE z (b32_mult mode_NE hf (fast_log32 log2 q))) (lg ((b2r nu + 1) / 2) - lg (b2r nu / 2) + ln X / 2) /\
  Rabs (lg ((b2r nu + 1) / 2) - lg (b2r nu / 2) + ln X / 2) <= 90.
Proof.
  intros HG H2 Fn Hn Fh Eh NQ K U Az. pose proof (nu_range lg (b2r nu) HG Hn) as R. set (G := lg ((b2r nu + 1) / 2) - lg (b2r nu / 2)) in *. clearbody G.
  destruct (near_log log2 k q X H2 NQ U) as [FL BL]. assert (Rabs (ln X) <= 77) as LX.
  { destruct U as [U1 U2]. pose proof ln2_hi. pose proof ln2_lo. assert (ln (bpow radix2 (-110)) <= ln X) as A by (apply ln_le'; [apply bpow_gt_0 | exact U1]).
    assert (ln X <= ln (bpow radix2 110)) as B by (apply ln_le'; [pose proof (bpow_gt_0 radix2 (-110)); lra | exact U2]).
    rewrite bpow_exp, ln_exp in A, B. change (IZR radix2) with 2 in *. change (IZR (-110)) with (-110) in A. apply Rabs_le. lra. }
  destruct NQ as (_ & _ & _ & K0 & _).
  assert (app (75 / 1000000) (fast_log32 log2 q) (ln X)) as AL.
  { split; [exact FL |]. assert (k * e23 <= 12 * e23) by (apply Rmult_le_compat_r; [unfold e23; lra | lra]). unfold log_band, e23 in *. apply Rabs_le. lra. }
  assert (app 0 hf (/ 2)) as AH by (split; [exact Fh | rewrite Eh, Rminus_eq_0, Rabs_R0; lra]).
  pose proof (app_mult _ _ _ _ _ _ (/ 2) 77 AH AL ltac:(rewrite Rabs_pos_eq; lra) LX ltac:(lra)) as AM.
  replace (/ 2 * ln X) with (ln X / 2) in AM by field.
  assert (Rabs (G + ln X / 2) <= 80) as B by (apply Rabs_le_inv in R; apply Rabs_le_inv in LX; apply Rabs_le; lra).
  split; [| lra]. eapply app_weaken; [apply (app_plus _ _ _ _ _ _ 81 Az AM); lra | lra].
Qed.

Lemma usual_bp X a b : bpow radix2 a <= X <= bpow radix2 b -> (-110 <= a)%Z -> (b <= 110)%Z -> usual X.
Proof. intros [A B] Ha Hb. split; eapply Rle_trans; [apply bpow_le, Ha | exact A | exact B | apply bpow_le, Hb]. Qed.
Lemma bp_mult a b c d x y : bpow radix2 a <= x <= bpow radix2 b -> bpow radix2 c <= y <= bpow radix2 d -> bpow radix2 (a + c) <= x * y <= bpow radix2 (b + d).
Proof.
  intros [A B] [C D]. pose proof (bpow_gt_0 radix2 a). pose proof (bpow_gt_0 radix2 c). rewrite !bpow_plus. split; apply Rmult_le_compat; lra.
Qed.
Lemma bp_inv c d y : bpow radix2 c <= y <= bpow radix2 d -> bpow radix2 (- d) <= / y <= bpow radix2 (- c).
Proof. intros [C D]. pose proof (bpow_gt_0 radix2 c). rewrite !bpow_opp. split; apply Rinv_le_contravar; lra. Qed.
Lemma bp_div a b c d x y : bpow radix2 a <= x <= bpow radix2 b -> bpow radix2 c <= y <= bpow radix2 d -> bpow radix2 (a - d) <= x / y <= bpow radix2 (b - c).
Proof. intros A B. unfold Z.sub, Rdiv. apply bp_mult; [exact A | now apply bp_inv]. Qed.
Lemma pi_bp : bpow radix2 1 <= PI <= bpow radix2 2.
Proof. pose proof pi_15 as [L U]. change (bpow radix2 1) with 2. change (bpow radix2 2) with 4. lra. Qed.

Section Scores.
  Variables (tbl : list Z) (log2 libm lgam : binary32 -> binary32) (lfact : Z -> binary32) (sq : binary32 -> binary32) (pw : binary32 -> binary32 -> binary32).
  Let NB : Num binary32 := NumB tbl lit32 (fast_log32 log2) lgam (lgamma_nu32 libm) lfact sq pw.
  Variable lg : R -> R.
  Hypothesis HG : is_log_gamma lg.
  Hypothesis H2 : good_log2 log2.

  Lemma student_close (x nu mu lambda : binary32) : fin x = true -> Rabs (b2r x) <= bpow radix2 30 -> fin mu = true -> Rabs (b2r mu) <= bpow radix2 30 ->
    fin nu = true -> / 16 <= b2r nu <= bpow radix2 24 -> ordinary lambda ->
    app (162 / 10000 + 47 / 1000000 * (b2r nu + 1)) (fast_score_student_t (N:=NB) x nu mu lambda) (student_t lg (b2r nu) (b2r mu) (b2r lambda) (b2r x)).
  Proof using HG H2.
    intros Fx Hx Fm Hm Fn Hn [Fl Hl]. destruct lit_vals as (FH & EH & E1 & E0 & _).
    assert (bpow radix2 (-4) <= b2r nu <= bpow radix2 24) as Bn by exact Hn. assert (0 < b2r nu) as Pn by lra. assert (0 < b2r lambda) as Pl by (pose proof (bpow_gt_0 radix2 (-30)); lra).
    unfold fast_score_student_t, student_t. cbn [nlit nadd nsub nmul ndiv nneg nlog nlgamma_nu NB NumB]. unfold half, sqr, m_pif. cbn [nlit nadd nsub nmul ndiv nneg nlog nlgamma_nu NB NumB]. rewrite E1, E0.
    (* constant part *)
    pose proof (near_mul 1 0 _ _ _ _ near_pi (near_self nu Fn Pn) ltac:(lra) (usual_bp _ _ _ (bp_mult 1 2 (-4) 24 _ _ pi_bp Bn) ltac:(lia) ltac:(lia))) as NP.
    pose proof (bp_div (-30) 30 (1 + -4) (2 + 24) _ _ Hl (bp_mult 1 2 (-4) 24 _ _ pi_bp Bn)) as BQ.
    pose proof (usual_bp _ _ _ BQ ltac:(lia) ltac:(lia)) as UQ.
    pose proof (near_div 0 (1 + 0 + 1) _ _ _ _ (near_self lambda Fl Pl) NP ltac:(lra) UQ) as NQ.
    destruct (int_ok 0 ltac:(lia)) as [Z0 F0]. assert (app 0 (float_of_int 0) 0) as A0 by (split; [exact F0 | rewrite Z0, Rminus_eq_0, Rabs_R0; lra]).
    pose proof (nu_ok lg libm nu HG Fn Hn) as AN. pose proof (nu_range lg (b2r nu) HG Hn) as RN.
    pose proof (app_plus _ _ _ _ _ _ 42 A0 AN ltac:(rewrite Rplus_0_l; lra)) as AZ. rewrite (Rplus_0_l (lg _ - lg _)) in AZ.
    eapply app_weaken in AZ; [| instantiate (1 := 16003 / 1000000); lra].
    destruct (constant_ok lg log2 _ _ nu (lit32 1 2) _ _ HG H2 Fn Hn FH EH NQ ltac:(lra) UQ AZ) as [AC BC].
    replace (b2r lambda / (PI * b2r nu)) with (b2r lambda / (b2r nu * PI)) in * by (f_equal; ring).
    (* logarithm *)
    destruct (rel_square x mu Fx Fm Hx Hm) as [RS BS].
    pose proof (near_rel 0 lambda _ (near_self lambda Fl Pl) ltac:(lra)) as RL.
    pose proof (rel_mult _ _ _ _ _ _ _ RL RS ltac:(unfold u24; lra) ltac:(unfold u24; lra)
      ltac:(split; [apply bpow_ge_0 | change (/ 4) with (bpow radix2 (-2)); apply bpow_le; lia]) ltac:(eapply Rle_trans; [apply Hl | apply bpow_le; lia]) ltac:(eapply Rle_trans; [exact BS | apply bpow_le; lia])) as RM.
    rewrite <- bpow_plus in RM. change (-110 + 41)%Z with (-69)%Z in RM.
    assert (b2r lambda * (b2r x - b2r mu) ^ 2 <= bpow radix2 92) as BM.
    { change 92%Z with (30 + 62)%Z. rewrite bpow_plus. apply Rmult_le_compat; try lra. apply pow2_ge_0. }
    assert (bpow radix2 (-69) + bpow radix2 (-149) <= bpow radix2 (-68)) as T1.
    { replace (bpow radix2 (-68)) with (2 * bpow radix2 (-69)) by (change 2 with (bpow radix2 1); rewrite <- bpow_plus; reflexivity). assert (bpow radix2 (-149) <= bpow radix2 (-69)) by (apply bpow_le; lia). lra. }
    pose proof (bpow_gt_0 radix2 (-69)). pose proof (bpow_gt_0 radix2 (-149)).
    assert (bpow radix2 (-68) <= / 4) by (change (/ 4) with (bpow radix2 (-2)); apply bpow_le; lia).
    pose proof (rel_div _ _ _ _ nu RM Fn ltac:(lra) ltac:(unfold u24; lra) ltac:(lra) ltac:(eapply Rle_trans; [exact BM | apply bpow_le; lia])) as RD.
    assert (b2r lambda * (b2r x - b2r mu) ^ 2 / b2r nu <= bpow radix2 105) as BD.
    { change 105%Z with (101 + 4)%Z. rewrite bpow_plus. unfold Rdiv. apply Rmult_le_compat; [apply Rmult_le_pos; [lra | apply pow2_ge_0] | left; now apply Rinv_0_lt_compat | eapply Rle_trans; [exact BM | apply bpow_le; lia] |].
      change (bpow radix2 4) with 16. replace 16 with (/ / 16) by field. apply Rinv_le_contravar; lra. }
    assert ((bpow radix2 (-69) + bpow radix2 (-149)) * 32 + bpow radix2 (-149) <= bpow radix2 (-50)) as T2.
    { assert (bpow radix2 (-50) = bpow radix2 (-68) * 262144) as -> by (change 262144 with (bpow radix2 18); rewrite <- bpow_plus; reflexivity). assert (bpow radix2 (-149) <= bpow radix2 (-68)) by (apply bpow_le; lia). lra. }
    destruct (one_plus_log log2 _ _ _ _ H2 RD ltac:(unfold u24; lra) ltac:(split; [lra | exact T2]) BD) as [AL BL].
    pose proof (assemble nu (lit32 1 2) _ _ _ _ Fn Hn FH EH AC BC AL BL) as A. exact A.
  Qed.

  Lemma nich_close (sh : nich_shared binary32) (g : nich_group binary32) (v : binary32) :
    let post := nich_plus_group (N:=NB) sh g in
    fin v = true -> Rabs (b2r v) <= bpow radix2 30 -> fin (ni_mu post) = true -> Rabs (b2r (ni_mu post)) <= bpow radix2 30 ->
    fin (ni_nu post) = true -> / 16 <= b2r (ni_nu post) <= bpow radix2 24 -> ordinary (ni_kappa post) -> ordinary (ni_sigmasq post) ->
    app (162 / 10000 + 47 / 1000000 * (b2r (ni_nu post) + 1)) (nich_score_value (N:=NB) sh g v)
      (student_t lg (b2r (ni_nu post)) (b2r (ni_mu post)) (b2r (ni_kappa post) / ((b2r (ni_kappa post) + 1) * b2r (ni_sigmasq post))) (b2r v)).
  Proof using HG H2.
    intros post. unfold nich_score_value, nich_scorer_init, nich_scorer_eval. fold post. generalize post. clear post sh g. intros [mu kappa sigmasq nu]. cbn [ni_mu ni_kappa ni_sigmasq ni_nu nis_score nis_coeff nis_prec nis_mean].
    intros Fv Hv Fm Hm Fn Hn [Fk Hk] [Fs Hs]. destruct lit_vals as (FH & EH & E1 & _).
    assert (bpow radix2 (-4) <= b2r nu <= bpow radix2 24) as Bn by exact Hn. assert (0 < b2r nu) as Pn by lra.
    pose proof (bpow_gt_0 radix2 (-30)) as P30. assert (0 < b2r kappa) as Pk by lra. assert (0 < b2r sigmasq) as Ps by lra.
    cbn [nlit nadd nsub nmul ndiv nneg nlog nlgamma_nu NB NumB]. unfold half, sqr, m_pif. cbn [nlit nadd nsub nmul ndiv nneg nlog nlgamma_nu NB NumB]. rewrite E1.
    destruct (int_ok 1 ltac:(lia)) as [V1 F1].
    assert (near 0 (float_of_int 1) 1) as N1 by (rewrite <- V1; apply near_self; [exact F1 | rewrite V1; lra]).
    assert (bpow radix2 0 <= b2r kappa + 1 <= bpow radix2 31) as BK1.
    { change (bpow radix2 0) with 1. change (bpow radix2 31) with 2147483648. change (bpow radix2 30) with 1073741824 in Hk. lra. }
    pose proof (near_add 0 _ _ _ _ (near_self kappa Fk Pk) N1 ltac:(lra) (usual_bp _ _ _ BK1 ltac:(lia) ltac:(lia))) as NK1.
    pose proof (bp_mult _ _ _ _ _ _ BK1 Hs) as BKS. pose proof (near_mul (0 + 1) 0 _ _ _ _ NK1 (near_self sigmasq Fs Ps) ltac:(lra) (usual_bp _ _ _ BKS ltac:(lia) ltac:(lia))) as NKS.
    set (Lam := b2r kappa / ((b2r kappa + 1) * b2r sigmasq)) in *.
    assert (bpow radix2 (-61) <= Lam <= bpow radix2 30) as BL.
    { replace Lam with (b2r kappa / (b2r kappa + 1) * / b2r sigmasq) by (unfold Lam; field; lra). change (-61)%Z with (-31 + -30)%Z. replace (bpow radix2 30) with (bpow radix2 (0 + 30)) by reflexivity.
      apply bp_mult; [| exact (bp_inv (-30) 30 _ Hs)]. change (bpow radix2 0) with 1. split; [| apply Rmult_le_reg_r with (b2r kappa + 1); [lra |]; unfold Rdiv; rewrite Rmult_assoc, Rinv_l; lra].
      apply Rmult_le_reg_r with (b2r kappa + 1); [lra |]. unfold Rdiv. rewrite Rmult_assoc, Rinv_l, Rmult_1_r by lra. change (bpow radix2 (-30)) with (/ 1073741824) in Hk. change (bpow radix2 30) with 1073741824 in Hk. change (bpow radix2 (-31)) with (/ 2147483648). lra. }
    pose proof (near_div 0 (0 + 1 + 0 + 1) _ _ _ _ (near_self kappa Fk Pk) NKS ltac:(lra) (usual_bp _ _ _ BL ltac:(lia) ltac:(lia))) as NL.
    fold Lam in NL.
    set (lam := b32_div mode_NE kappa (b32_mult mode_NE (b32_plus mode_NE kappa (float_of_int 1)) sigmasq)) in *. clearbody lam.
    assert (0 < Lam) as PL by apply NL.
    (* constant part *)
    pose proof (bp_mult 1 2 (-4) 24 _ _ pi_bp Bn) as BP.
    pose proof (near_mul 1 0 _ _ _ _ near_pi (near_self nu Fn Pn) ltac:(lra) (usual_bp _ _ _ BP ltac:(lia) ltac:(lia))) as NP.
    pose proof (bp_div _ _ _ _ _ _ BL BP) as BQ. pose proof (usual_bp _ _ _ BQ ltac:(lia) ltac:(lia)) as UQ.
    pose proof (near_div _ _ _ _ _ _ NL NP ltac:(lra) UQ) as NQ.
    pose proof (nu_ok lg libm nu HG Fn Hn) as AZ. eapply app_weaken in AZ; [| instantiate (1 := 16003 / 1000000); lra].
    destruct (constant_ok lg log2 _ _ nu (lit32 1 2) _ _ HG H2 Fn Hn FH EH NQ ltac:(lra) UQ AZ) as [AC BC].
    replace (Lam / (PI * b2r nu)) with (Lam / (b2r nu * PI)) in * by (f_equal; ring).
    (* logarithm *)
    pose proof (bp_div _ _ _ _ _ _ BL Bn) as BD. pose proof (near_div _ 0 _ _ _ _ NL (near_self nu Fn Pn) ltac:(lra) (usual_bp _ _ _ BD ltac:(lia) ltac:(lia))) as NPr.
    destruct (rel_square v mu Fv Fm Hv Hm) as [RS BS].
    pose proof (near_rel _ _ _ NPr ltac:(lra)) as RL.
    pose proof (rel_mult _ _ _ _ _ _ _ RL RS ltac:(unfold u24; lra) ltac:(unfold u24; lra)
      ltac:(split; [apply bpow_ge_0 | change (/ 4) with (bpow radix2 (-2)); apply bpow_le; lia]) ltac:(eapply Rle_trans; [apply BD | apply bpow_le; lia]) ltac:(eapply Rle_trans; [exact BS | apply bpow_le; lia])) as RM.
    rewrite <- bpow_plus in RM. change (-110 + 41)%Z with (-69)%Z in RM.
    assert (Lam / b2r nu * (b2r v - b2r mu) ^ 2 <= bpow radix2 105) as BM.
    { apply Rle_trans with (bpow radix2 34 * bpow radix2 62); [| rewrite <- bpow_plus; apply bpow_le; lia]. apply Rmult_le_compat; [left; now apply Rdiv_lt_0_compat | apply pow2_ge_0 | eapply Rle_trans; [apply BD | apply bpow_le; lia] | exact BS]. }
    assert (bpow radix2 (-69) + bpow radix2 (-149) <= bpow radix2 (-50)) as T1.
    { apply Rle_trans with (2 * bpow radix2 (-69)); [assert (bpow radix2 (-149) <= bpow radix2 (-69)) by (apply bpow_le; lia); lra |]. change 2 with (bpow radix2 1). rewrite <- bpow_plus. apply bpow_le. lia. }
    pose proof (bpow_gt_0 radix2 (-69)). pose proof (bpow_gt_0 radix2 (-149)).
    destruct (one_plus_log log2 _ _ _ _ H2 RM ltac:(unfold u24; lra) ltac:(split; [lra | exact T1]) BM) as [AL BLo].
    pose proof (assemble nu (lit32 1 2) _ _ _ _ Fn Hn FH EH AC BC AL BLo) as A. unfold student_t.
    replace (Lam * (b2r v - b2r mu) ^ 2 / b2r nu) with (Lam / b2r nu * (b2r v - b2r mu) ^ 2) by (unfold Rdiv; ring). exact A.
  Qed.
End Scores.
