(** The fast logarithm is constant on [1, 1 + 2^-14), so the scores of Student's t are constant around the mean. *)
From Coq Require Import Reals Lra ZArith Lia List.
From Flocq Require Import Core BinarySingleNaN Binary Bits.
From Verif.model Require Import Base Num FastExp FloatNum FastLog Special FastLgamma NICH Student.
From Verif.spec Require Import LogSpec DrawSpec SpecialSpec StudentSpec.
From Verif.proof Require Import LnBounds PiBound LgammaBound FastExpProof FloatScoresProof FastLogProof SpecialProof FloatNichPost FloatRel FloatStirlingApprox StudentProof.
Local Open Scope R_scope.

Lemma one_cell (x : binary32) : fin x = true -> 1 <= b2r x < 1 + / 16384 ->
  fastlog_exp (bits_of_b32 x) = 0%Z /\ fastlog_man 14 (bits_of_b32 x) = 0%Z.
Proof.
  intros F H. assert (bpow radix2 (-126) <= b2r x) as L by (apply Rle_trans with (bpow radix2 0); [apply bpow_le; lia | cbn; lra]).
  destruct (normal_bits x F L) as [PN V]. set (b := bits_of_b32 x) in *. clearbody b. pose proof (normal_pattern b PN) as Pb.
  unfold fastlog_exp. rewrite field_exp, field_man by (assumption || lia). change (2 ^ (23 - 14))%Z with 512%Z.
  destruct (split_log b PN) as [Ee _]. cbv zeta in Ee. rewrite Ee. rewrite <- V in H. unfold normal_value in H.
  set (k := (b / 8388608 - 127)%Z) in *. pose proof (Z.mod_pos_bound b 8388608 ltac:(lia)) as Hm. set (m := (b mod 8388608)%Z) in *. clearbody k m.
  assert (0 <= IZR m < 8388608) as Rm by (split; [apply (IZR_le 0); lia | apply (IZR_lt m 8388608); lia]).
  change 2 with (IZR radix2) in H. rewrite <- bpow_powerRZ in H. pose proof (bpow_gt_0 radix2 k) as Pk.
  assert (k = 0)%Z as ->.
  { destruct (Z.lt_trichotomy k 0) as [K | [K | K]]; [exfalso | exact K | exfalso].
    - assert (bpow radix2 k <= bpow radix2 (-1)) as B by (apply bpow_le; lia). change (bpow radix2 (-1)) with (/ 2) in B.
      assert ((1 + IZR m / 8388608) * bpow radix2 k <= (1 + IZR m / 8388608) * / 2) by (apply Rmult_le_compat_l; lra). lra.
    - assert (bpow radix2 1 <= bpow radix2 k) as B by (apply bpow_le; lia). change (bpow radix2 1) with 2 in B.
      assert ((1 + IZR m / 8388608) * 2 <= (1 + IZR m / 8388608) * bpow radix2 k) by (apply Rmult_le_compat_l; lra). lra. }
  split; [reflexivity |]. change (bpow radix2 0) with 1 in H. apply Z.div_small. split; [lia |]. apply lt_IZR. lra.
Qed.
Lemma flat_log log2 (x y : binary32) : fin x = true -> 1 <= b2r x < 1 + / 16384 -> fin y = true -> 1 <= b2r y < 1 + / 16384 ->
  fast_log32 log2 x = fast_log32 log2 y.
Proof.
  intros Fx Hx Fy Hy. destruct (one_cell x Fx Hx) as [A B]. destruct (one_cell y Fy Hy) as [C D].
  unfold fast_log32, fast_log_run. destruct (table32 log2) as (t & -> & _). cbn [obind]. unfold fastlog32. rewrite A, B, C, D. reflexivity.
Qed.
Lemma one_plus_cell h t w W : rel h t w W -> 0 <= h <= 20 * u24 -> 0 <= t <= bpow radix2 (-50) -> W <= 6 / 100000 ->
  fin (b32_plus mode_NE (float_of_int 1) w) = true /\ 1 <= b2r (b32_plus mode_NE (float_of_int 1) w) < 1 + / 16384.
Proof.
  intros (Fw & W0 & W1 & HW) Hh Ht BW. destruct (int_ok 1 ltac:(lia)) as [E1 F1].
  assert (t <= / 1000000000000000) as T by (eapply Rle_trans; [apply Ht |]; change (bpow radix2 (-50)) with (/ 1125899906842624); lra).
  unfold u24 in *. assert (h * W <= 20 * / 16777216 * W) by (apply Rmult_le_compat_r; lra). apply Rabs_le_inv in HW.
  assert (1 + b2r w <= 1 + 601 / 10000000) as U by lra.
  assert (Rabs (1 + b2r w) <= bpow radix2 127) as M.
  { rewrite Rabs_pos_eq by lra. apply Rle_trans with (bpow radix2 1); [cbn; lra | apply bpow_le; lia]. }
  destruct (plus_ok (float_of_int 1) w F1 Fw ltac:(rewrite E1; exact M)) as [E F]. rewrite E1 in E. split; [exact F |]. rewrite E. split.
  - rewrite <- E1 at 1. rewrite <- (rnd_same (float_of_int 1)). apply rnd_le. rewrite E1. lra.
  - pose proof (rnd_err (1 + b2r w)) as R. rewrite (Rabs_pos_eq (1 + b2r w)) in R by lra. unfold u24 in R. pose proof eta32_pos. apply Rabs_le_inv in R. lra.
Qed.

Lemma student_arg (x nu mu lambda : binary32) : fin x = true -> Rabs (b2r x) <= bpow radix2 30 -> fin mu = true -> Rabs (b2r mu) <= bpow radix2 30 ->
  fin nu = true -> / 16 <= b2r nu <= bpow radix2 24 -> ordinary lambda ->
  b2r lambda * (b2r x - b2r mu) ^ 2 / b2r nu <= 6 / 100000 ->
  let y := b32_plus mode_NE (float_of_int 1) (b32_div mode_NE (b32_mult mode_NE lambda (b32_mult mode_NE (b32_minus mode_NE x mu) (b32_minus mode_NE x mu))) nu) in
  fin y = true /\ 1 <= b2r y < 1 + / 16384.
Proof.
    intros Fx Hx Fm Hm Fn Hn [Fl Hl] HW. assert (0 < b2r nu) as Pn by lra. assert (0 < b2r lambda) as Pl by (pose proof (bpow_gt_0 radix2 (-30)); lra).
    destruct (rel_square x mu Fx Fm Hx Hm) as [RS BS].
    pose proof (near_rel 0 lambda _ (near_self lambda Fl Pl) ltac:(lra)) as RL.
    pose proof (rel_mult _ _ _ _ _ _ _ RL RS ltac:(unfold u24; lra) ltac:(unfold u24; lra)
      ltac:(split; [apply bpow_ge_0 | change (/ 4) with (bpow radix2 (-2)); apply bpow_le; lia]) ltac:(eapply Rle_trans; [apply Hl | apply bpow_le; lia]) ltac:(eapply Rle_trans; [exact BS | apply bpow_le; lia])) as RM.
    rewrite <- bpow_plus in RM. change (-110 + 41)%Z with (-69)%Z in RM.
    assert (b2r lambda * (b2r x - b2r mu) ^ 2 <= bpow radix2 92) as BM.
    { change 92%Z with (30 + 62)%Z. rewrite bpow_plus. apply Rmult_le_compat; try lra. apply pow2_ge_0. }
    assert (bpow radix2 (-69) + bpow radix2 (-149) <= bpow radix2 (-68)) as T1.
    { replace (bpow radix2 (-68)) with (2 * bpow radix2 (-69)) by (change 2 with (bpow radix2 1); rewrite <- bpow_plus; reflexivity). assert (bpow radix2 (-149) <= bpow radix2 (-69)) by (apply bpow_le; lia). lra. }
    pose proof (bpow_gt_0 radix2 (-69)). pose proof (bpow_gt_0 radix2 (-149)).
    assert (bpow radix2 (-68) <= / 4) by (change (/ 4) with (bpow radix2 (-2)); apply bpow_le; lia).
    pose proof (rel_div _ _ _ _ nu RM Fn ltac:(lra) ltac:(unfold u24; lra) ltac:(lra) ltac:(eapply Rle_trans; [exact BM | apply bpow_le; lia])) as RD.
    assert (b2r lambda * (b2r x - b2r mu) ^ 2 / b2r nu <= bpow radix2 105) as BD.
    { change 105%Z with (101 + 4)%Z. rewrite bpow_plus. unfold Rdiv. apply Rmult_le_compat; [apply Rmult_le_pos; [lra | apply pow2_ge_0] | left; now apply Rinv_0_lt_compat | eapply Rle_trans; [exact BM | apply bpow_le; lia] |].
      change (bpow radix2 4) with 16. replace 16 with (/ / 16) by field. apply Rinv_le_contravar; lra. }
    assert ((bpow radix2 (-69) + bpow radix2 (-149)) * 32 + bpow radix2 (-149) <= bpow radix2 (-50)) as T2.
    { assert (bpow radix2 (-50) = bpow radix2 (-68) * 262144) as -> by (change 262144 with (bpow radix2 18); rewrite <- bpow_plus; reflexivity). assert (bpow radix2 (-149) <= bpow radix2 (-68)) by (apply bpow_le; lia). lra. }
    exact (one_plus_cell _ _ _ _ RD ltac:(unfold u24; lra) ltac:(split; [lra | exact T2]) HW).
Qed.
Lemma nich_arg (v mu kappa sigmasq nu : binary32) : fin v = true -> Rabs (b2r v) <= bpow radix2 30 -> fin mu = true -> Rabs (b2r mu) <= bpow radix2 30 ->
  fin nu = true -> / 16 <= b2r nu <= bpow radix2 24 -> ordinary kappa -> ordinary sigmasq ->
  b2r kappa / ((b2r kappa + 1) * b2r sigmasq) * (b2r v - b2r mu) ^ 2 / b2r nu <= 6 / 100000 ->
  let lam := b32_div mode_NE kappa (b32_mult mode_NE (b32_plus mode_NE kappa (float_of_int 1)) sigmasq) in
  let y := b32_plus mode_NE (float_of_int 1) (b32_mult mode_NE (b32_div mode_NE lam nu) (b32_mult mode_NE (b32_minus mode_NE v mu) (b32_minus mode_NE v mu))) in
  fin y = true /\ 1 <= b2r y < 1 + / 16384.
Proof.
    intros Fv Hv Fm Hm Fn Hn [Fk Hk] [Fs Hs] HW lam0.
    assert (bpow radix2 (-4) <= b2r nu <= bpow radix2 24) as Bn by exact Hn. assert (0 < b2r nu) as Pn by lra.
    pose proof (bpow_gt_0 radix2 (-30)) as P30. assert (0 < b2r kappa) as Pk by lra. assert (0 < b2r sigmasq) as Ps by lra.
    destruct (int_ok 1 ltac:(lia)) as [V1 F1].
    assert (near 0 (float_of_int 1) 1) as N1 by (rewrite <- V1; apply near_self; [exact F1 | rewrite V1; lra]).
    assert (bpow radix2 0 <= b2r kappa + 1 <= bpow radix2 31) as BK1.
    { change (bpow radix2 0) with 1. change (bpow radix2 31) with 2147483648. change (bpow radix2 30) with 1073741824 in Hk. lra. }
    pose proof (near_add 0 _ _ _ _ (near_self kappa Fk Pk) N1 ltac:(lra) (usual_bp _ _ _ BK1 ltac:(lia) ltac:(lia))) as NK1.
    pose proof (bp_mult _ _ _ _ _ _ BK1 Hs) as BKS. pose proof (near_mul (0 + 1) 0 _ _ _ _ NK1 (near_self sigmasq Fs Ps) ltac:(lra) (usual_bp _ _ _ BKS ltac:(lia) ltac:(lia))) as NKS.
    set (Lam := b2r kappa / ((b2r kappa + 1) * b2r sigmasq)) in *.
    assert (bpow radix2 (-61) <= Lam <= bpow radix2 30) as BL.
    { replace Lam with (b2r kappa / (b2r kappa + 1) * / b2r sigmasq) by (unfold Lam; field; lra). change (-61)%Z with (-31 + -30)%Z. replace (bpow radix2 30) with (bpow radix2 (0 + 30)) by reflexivity.
      apply bp_mult; [| exact (bp_inv (-30) 30 _ Hs)]. change (bpow radix2 0) with 1. split; [| apply Rmult_le_reg_r with (b2r kappa + 1); [lra |]; unfold Rdiv; rewrite Rmult_assoc, Rinv_l; lra].
      apply Rmult_le_reg_r with (b2r kappa + 1); [lra |]. unfold Rdiv. rewrite Rmult_assoc, Rinv_l, Rmult_1_r by lra. change (bpow radix2 (-30)) with (/ 1073741824) in Hk. change (bpow radix2 30) with 1073741824 in Hk. change (bpow radix2 (-31)) with (/ 2147483648). lra. }
    pose proof (near_div 0 (0 + 1 + 0 + 1) _ _ _ _ (near_self kappa Fk Pk) NKS ltac:(lra) (usual_bp _ _ _ BL ltac:(lia) ltac:(lia))) as NL.
    fold Lam in NL.
    fold lam0 in NL. clearbody lam0.
    assert (0 < Lam) as PL by apply NL.
    pose proof (bp_div _ _ _ _ _ _ BL Bn) as BD. pose proof (near_div _ 0 _ _ _ _ NL (near_self nu Fn Pn) ltac:(lra) (usual_bp _ _ _ BD ltac:(lia) ltac:(lia))) as NPr.
    destruct (rel_square v mu Fv Fm Hv Hm) as [RS BS].
    pose proof (near_rel _ _ _ NPr ltac:(lra)) as RL.
    pose proof (rel_mult _ _ _ _ _ _ _ RL RS ltac:(unfold u24; lra) ltac:(unfold u24; lra)
      ltac:(split; [apply bpow_ge_0 | change (/ 4) with (bpow radix2 (-2)); apply bpow_le; lia]) ltac:(eapply Rle_trans; [apply BD | apply bpow_le; lia]) ltac:(eapply Rle_trans; [exact BS | apply bpow_le; lia])) as RM.
    rewrite <- bpow_plus in RM. change (-110 + 41)%Z with (-69)%Z in RM.
    assert (Lam / b2r nu * (b2r v - b2r mu) ^ 2 <= bpow radix2 105) as BM.
    { apply Rle_trans with (bpow radix2 34 * bpow radix2 62); [| rewrite <- bpow_plus; apply bpow_le; lia]. apply Rmult_le_compat; [left; now apply Rdiv_lt_0_compat | apply pow2_ge_0 | eapply Rle_trans; [apply BD | apply bpow_le; lia] | exact BS]. }
    assert (bpow radix2 (-69) + bpow radix2 (-149) <= bpow radix2 (-50)) as T1.
    { apply Rle_trans with (2 * bpow radix2 (-69)); [assert (bpow radix2 (-149) <= bpow radix2 (-69)) by (apply bpow_le; lia); lra |]. change 2 with (bpow radix2 1). rewrite <- bpow_plus. apply bpow_le. lia. }
    pose proof (bpow_gt_0 radix2 (-69)). pose proof (bpow_gt_0 radix2 (-149)).
    replace (Lam * (b2r v - b2r mu) ^ 2 / b2r nu) with (Lam / b2r nu * (b2r v - b2r mu) ^ 2) in HW by (unfold Rdiv; ring).
    exact (one_plus_cell _ _ _ _ RM ltac:(unfold u24; lra) ltac:(split; [lra | exact T1]) HW).
Qed.
Section Flat.
  Variables (tbl : list Z) (log2 libm lgam : binary32 -> binary32) (lfact : Z -> binary32) (sq : binary32 -> binary32) (pw : binary32 -> binary32 -> binary32).
  Let NB : Num binary32 := NumB tbl lit32 (fast_log32 log2) lgam (lgamma_nu32 libm) lfact sq pw.

  Lemma student_flat (x y nu mu lambda : binary32) : fin x = true -> Rabs (b2r x) <= bpow radix2 30 -> fin y = true -> Rabs (b2r y) <= bpow radix2 30 ->
    fin mu = true -> Rabs (b2r mu) <= bpow radix2 30 -> fin nu = true -> / 16 <= b2r nu <= bpow radix2 24 -> ordinary lambda ->
    b2r lambda * (b2r x - b2r mu) ^ 2 / b2r nu <= 6 / 100000 -> b2r lambda * (b2r y - b2r mu) ^ 2 / b2r nu <= 6 / 100000 ->
    fast_score_student_t (N:=NB) x nu mu lambda = fast_score_student_t (N:=NB) y nu mu lambda.
  Proof.
    intros Fx Hx Fy Hy Fm Hm Fn Hn Hl WX WY. destruct lit_vals as (_ & _ & E1 & _).
    destruct (student_arg x nu mu lambda Fx Hx Fm Hm Fn Hn Hl WX) as [FA A]. destruct (student_arg y nu mu lambda Fy Hy Fm Hm Fn Hn Hl WY) as [FB B].
    pose proof (flat_log log2 _ _ FA A FB B) as E.
    unfold fast_score_student_t. cbn [nlit nadd nsub nmul ndiv nneg nlog nlgamma_nu NB NumB]. unfold sqr. cbn [nlit nadd nsub nmul ndiv nneg nlog nlgamma_nu NB NumB]. rewrite E1, E. reflexivity.
  Qed.
  Lemma nich_flat (sh : nich_shared binary32) (g : nich_group binary32) (v w : binary32) :
    let post := nich_plus_group (N:=NB) sh g in
    fin v = true -> Rabs (b2r v) <= bpow radix2 30 -> fin w = true -> Rabs (b2r w) <= bpow radix2 30 -> fin (ni_mu post) = true -> Rabs (b2r (ni_mu post)) <= bpow radix2 30 ->
    fin (ni_nu post) = true -> / 16 <= b2r (ni_nu post) <= bpow radix2 24 -> ordinary (ni_kappa post) -> ordinary (ni_sigmasq post) ->
    b2r (ni_kappa post) / ((b2r (ni_kappa post) + 1) * b2r (ni_sigmasq post)) * (b2r v - b2r (ni_mu post)) ^ 2 / b2r (ni_nu post) <= 6 / 100000 ->
    b2r (ni_kappa post) / ((b2r (ni_kappa post) + 1) * b2r (ni_sigmasq post)) * (b2r w - b2r (ni_mu post)) ^ 2 / b2r (ni_nu post) <= 6 / 100000 ->
    nich_score_value (N:=NB) sh g v = nich_score_value (N:=NB) sh g w.
  Proof.
    intros post. unfold nich_score_value, nich_scorer_init, nich_scorer_eval. fold post. generalize post. clear post sh g. intros [mu kappa sigmasq nu]. cbn [ni_mu ni_kappa ni_sigmasq ni_nu nis_score nis_coeff nis_prec nis_mean].
    intros Fv Hv Fw Hw Fm Hm Fn Hn Hk Hs WV WW. destruct lit_vals as (_ & _ & E1 & _).
    destruct (nich_arg v mu kappa sigmasq nu Fv Hv Fm Hm Fn Hn Hk Hs WV) as [FA A]. destruct (nich_arg w mu kappa sigmasq nu Fw Hw Fm Hm Fn Hn Hk Hs WW) as [FB B].
    pose proof (flat_log log2 _ _ FA A FB B) as E.
    cbn [nlit nadd nsub nmul ndiv nneg nlog nlgamma_nu NB NumB]. unfold sqr. cbn [nlit nadd nsub nmul ndiv nneg nlog nlgamma_nu NB NumB]. rewrite E1, E. reflexivity.
  Qed.
End Flat.
