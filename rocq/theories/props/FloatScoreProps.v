(** C88: fast_log and the predictive scores in single precision.  [log2] is libm's log2, used once to fill the
    table; the remaining arguments of NumB do not enter these scores. *)
From Coq Require Import List Reals Lra Lia ZArith Bool.
From Flocq Require Import Core BinarySingleNaN Binary Bits.
From Verif.model Require Import Base Packed Num Sparse Driver PitmanYor PitmanYorRun BB DD DPD FastExp FloatNum FastLog.
From Verif.spec Require Import DriverSpec PartitionSpec LogSpec.
From Verif.proof Require Import LnBounds FastExpProof FastLogProof FastLogMono FloatRel FloatPredictive FloatPredictive2.
From stdpp Require Import gmap.
Import ListNotations.
Local Open Scope R_scope.

(** fast_log of a normal float errs on one side, by less than 2^-14. *)
Theorem C88_fast_log : forall log2 (x : binary32), good_log2 log2 -> is_finite 24 128 x = true -> bpow radix2 (-126) <= B2R 24 128 x ->
  exists r, fast_log_run log2 x = Ok r /\ is_finite 24 128 r = true /\
    -12 / 1000000 <= ln (B2R 24 128 x) - B2R 24 128 r <= / 16384 + 12 / 1000000.
Proof. exact log_run. Qed.
Print Assumptions C88_fast_log.

(** Not so for subnormal floats: the smallest has the logarithm -103.2 and fast_log says -88.0, as it does for 0. *)
Theorem C88_fast_log_subnormal_refuted : exists x : binary32, is_finite 24 128 x = true /\ 0 < B2R 24 128 x /\
  forall log2, good_log2 log2 -> exists r, fast_log_run log2 x = Ok r /\ 15 < B2R 24 128 r - ln (B2R 24 128 x).
Proof.
  exists (b32_of_bits 1). split; [reflexivity |].
  assert (B2R 24 128 (b32_of_bits 1) = bpow radix2 (-149)) as E.
  { assert (B2FF 24 128 (b32_of_bits 1) = F754_finite false 1 (-149)) as Q by (vm_compute; reflexivity).
    rewrite <- FF2R_B2FF, Q. unfold FF2R, F2R. cbn [Fnum Fexp cond_Zopp]. apply Rmult_1_l. }
  rewrite E. split; [apply bpow_gt_0 |]. intros log2 H. destruct (log_low log2 (b32_of_bits 1) H) as (r & Er & Fr & Hr); [right; vm_compute; reflexivity |].
  exists r. split; [exact Er |]. rewrite bpow_exp, ln_exp. change (IZR (-149)) with (-149). apply Rabs_le_inv in Hr. pose proof ln2_lo. change (IZR radix2) with 2. lra.
Qed.
Print Assumptions C88_fast_log_subnormal_refuted.
Theorem C88_fast_log_zero : forall log2 (x : binary32), good_log2 log2 -> bits_of_b32 x = 0%Z ->
  exists r, fast_log_run log2 x = Ok r /\ is_finite 24 128 r = true /\ Rabs (B2R 24 128 r + 127 * ln 2) <= / 10000.
Proof. intros log2 x H B. apply log_low; [exact H | now left]. Qed.
Print Assumptions C88_fast_log_zero.

(** fast_log never reverses the order of two normal floats, provided log2 does not reverse that of two floats in
    [1, 2) and stays in [0, 1] there. *)
Theorem C88_fast_log_monotone : forall log2 (x y : binary32), good_log2 log2 ->
  (forall a b, is_finite 24 128 a = true -> is_finite 24 128 b = true -> 1 <= B2R 24 128 a <= B2R 24 128 b -> B2R 24 128 b < 2 ->
     B2R 24 128 (log2 a) <= B2R 24 128 (log2 b)) ->
  (forall a, is_finite 24 128 a = true -> 1 <= B2R 24 128 a < 2 -> 0 <= B2R 24 128 (log2 a) <= 1) ->
  is_finite 24 128 x = true -> is_finite 24 128 y = true -> bpow radix2 (-126) <= B2R 24 128 x <= B2R 24 128 y ->
  exists r s, fast_log_run log2 x = Ok r /\ fast_log_run log2 y = Ok s /\ B2R 24 128 r <= B2R 24 128 s.
Proof.
  intros log2 x y G Mo Un Fx Fy H. destruct (log_run log2 x G Fx (proj1 H)) as (r & Er & _). destruct (log_run log2 y G Fy (Rle_trans _ _ _ (proj1 H) (proj2 H))) as (s & Es & _).
  exists r, s. split; [exact Er |]. split; [exact Es |]. exact (log_mono_run log2 x y r s Er Es (log_mono log2 x y G Mo Un Fx Fy H)).
Qed.
Print Assumptions C88_fast_log_monotone.
Example C88_monotone_nonvacuous : good_log2 log2_witness /\
  (forall a b, is_finite 24 128 a = true -> is_finite 24 128 b = true -> 1 <= B2R 24 128 a <= B2R 24 128 b -> B2R 24 128 b < 2 ->
     B2R 24 128 (log2_witness a) <= B2R 24 128 (log2_witness b)) /\
  (forall a, is_finite 24 128 a = true -> 1 <= B2R 24 128 a < 2 -> 0 <= B2R 24 128 (log2_witness a) <= 1).
Proof. split; [exact log2_witness_good |]. split; [intros a b _ _; exact (witness_mono a b) | intros a _; exact (witness_unit a)]. Qed.

Section Float.
  Variables (tbl : list Z) (lit : Z -> Z -> binary32) (log2 : binary32 -> binary32)
    (lgam lgam_nu : binary32 -> binary32) (lfact : Z -> binary32) (sq : binary32 -> binary32) (pw : binary32 -> binary32 -> binary32).
  Let NB : Num binary32 := NumB tbl lit (fast_log32 log2) lgam lgam_nu lfact sq pw.

  (** BetaBernoulli: each score is the logarithm of the predictive probability to within 10^-4, and the two
      probabilities add up to 1 to within 2 * 10^-4. *)
  Theorem C88_bb : forall (sh : bb_shared binary32) (g : bb_group), good_log2 log2 ->
    ordinary (bb_alpha sh) -> ordinary (bb_beta sh) -> (0 <= bb_heads g < 2 ^ 31)%Z -> (0 <= bb_tails g < 2 ^ 31)%Z ->
    let a := B2R 24 128 (bb_alpha sh) + IZR (bb_heads g) in let b := B2R 24 128 (bb_beta sh) + IZR (bb_tails g) in
    scores (/ 10000) (a / (a + b)) (bb_score_value (N:=NB) sh g true) /\
    scores (/ 10000) (b / (a + b)) (bb_score_value (N:=NB) sh g false) /\
    Rabs (exp (B2R 24 128 (bb_score_value (N:=NB) sh g true)) + exp (B2R 24 128 (bb_score_value (N:=NB) sh g false)) - 1) <= 2 / 10000.
  Proof.
    intros sh g G A B H T a b. split; [exact (bb_close tbl lit log2 lgam lgam_nu lfact sq pw G sh g true A B H T) |].
    split; [exact (bb_close tbl lit log2 lgam lgam_nu lfact sq pw G sh g false A B H T) | exact (bb_total tbl lit log2 lgam lgam_nu lfact sq pw G sh g A B H T)].
  Qed.

  (** DirichletDiscrete: the sum of the alphas adds one rounding per entry. *)
  Theorem C88_dd : forall dl (sh : dd_shared binary32) (g : dd_group) v a c, good_log2 log2 ->
    List.Forall ordinary (dd_alphas sh) -> List.Forall (fun c => 0 <= c < 2 ^ 31)%Z (dd_counts g) ->
    length (dd_counts g) = length (dd_alphas sh) -> (Z.of_nat (length (dd_alphas sh)) <= 524288)%Z ->
    nth_error (dd_alphas sh) v = Some a -> nth_error (dd_counts g) v = Some c ->
    exists s, dd_score_value (N:=NB) dl sh g (Z.of_nat v) = Ok s /\
      scores (/ 10000 + IZR (Z.of_nat (length (dd_alphas sh))) * / 8388608)
        ((B2R 24 128 a + IZR c) / (rsum (map (B2R 24 128) (dd_alphas sh)) + IZR (sum_sizes (dd_counts g)))) s.
  Proof. intros dl sh g v a c G. exact (dd_close tbl lit log2 lgam lgam_nu lfact sq pw G dl sh g v a c). Qed.

  (** DirichletProcessDiscrete, for the values of the shared part and for OTHER. *)
  Theorem C88_dpd : forall dl (sh : dpd_shared binary32) (g : counter) v b t, good_log2 log2 -> ordinary (dp_alpha sh) -> ordinary b ->
    (if (v =? OTHER)%Z then b = dp_beta0 sh else dp_betas sh !! v = Some b) ->
    ctr_get_total g = Ok t -> (0 <= t < 2 ^ 31)%Z -> (0 <= ctr_get_count g v < 2 ^ 31)%Z ->
    exists s, dpd_score_value (N:=NB) dl sh g v = Ok s /\
      scores (/ 10000) ((B2R 24 128 (dp_alpha sh) * B2R 24 128 b + (if (v =? OTHER)%Z then 0 else IZR (ctr_get_count g v)))
                        / (B2R 24 128 (dp_alpha sh) + IZR t)) s.
  Proof. intros dl sh g v b t G. exact (dpd_close tbl lit log2 lgam lgam_nu lfact sq pw G dl sh g v b t). Qed.

  (** PitmanYor::score_add_value. *)
  Theorem C88_py_add : forall (m : py binary32) c K n e, good_log2 log2 -> ordinary (alpha m) -> discount (disc m) ->
    (0 <= c < 2 ^ 31)%Z -> (0 <= K <= 4294967296)%Z -> (0 <= n < 2 ^ 31)%Z -> (1 <= e <= 4294967296)%Z ->
    scores (/ 10000) (py_rule (B2R 24 128 (alpha m)) (B2R 24 128 (disc m)) (IZR n) (IZR K) (IZR e) (IZR c)) (py_score_add (N:=NB) m c K n e).
  Proof. intros m c K n e G. exact (py_add_close tbl lit log2 lgam lgam_nu lfact sq pw G m c K n e). Qed.

  (** CachedMixture of PitmanYor after every legal history: each cached score is the logarithm of the restaurant
      rule to within 10^-4 and the probabilities of all the groups add up to 1 to within 2 * 10^-4: the errors
      do not accumulate. *)
  Theorem C88_py_cached : forall (m : py binary32) dl old cs ops sizes outs, good_log2 log2 -> ordinary (alpha m) -> discount (disc m) ->
    sizes_ok cs -> dhistory cs ops sizes outs -> (Z.of_nat (length sizes) <= 4294967296)%Z ->
    exists c0 c l, py_init (N:=NB) dl m old cs = Ok c0 /\ pyrun (N:=NB) dl m c0 ops = Ok (c, outs) /\
      py_score_value (N:=NB) dl m c (length sizes) = Ok l /\
      List.Forall2 (fun n s => scores (/ 10000) (py_rule (B2R 24 128 (alpha m)) (B2R 24 128 (disc m)) (IZR (sum_sizes sizes))
          (IZR (Z.of_nat (length sizes - num_empty sizes))) (IZR (Z.of_nat (num_empty sizes))) (IZR n)) s) sizes l /\
      Rabs (rsum (map (fun s => exp (B2R 24 128 s)) l) - 1) <= 2 / 10000.
  Proof. intros m dl old cs ops sizes outs G. exact (py_cached_close tbl lit log2 lgam lgam_nu lfact sq pw G m dl old cs ops sizes outs). Qed.
End Float.
Print Assumptions C88_bb.
Print Assumptions C88_dd.
Print Assumptions C88_dpd.
Print Assumptions C88_py_add.
Print Assumptions C88_py_cached.

(** Hypotheses met: a log2, and hyperparameters 0.5, 1, 3 and a discount of 0.5. *)
Example C88_log2_exists : good_log2 log2_witness.
Proof. exact log2_witness_good. Qed.
Lemma ordinary_half : ordinary (b32_of_bits 1056964608) /\ B2R 24 128 (b32_of_bits 1056964608) = / 2.
Proof.
  assert (B2FF 24 128 (b32_of_bits 1056964608) = F754_finite false 8388608 (-24)) as Q by (vm_compute; reflexivity).
  assert (B2R 24 128 (b32_of_bits 1056964608) = / 2) as E by (rewrite <- FF2R_B2FF, Q; unfold FF2R, F2R; cbn [Fnum Fexp cond_Zopp]; change (bpow radix2 (-24)) with (/ 16777216); lra).
  split; [| exact E]. split; [reflexivity |]. rewrite E. split; [apply Rle_trans with (bpow radix2 (-1)); [apply bpow_le; lia | right; reflexivity] | apply Rle_trans with (bpow radix2 0); [cbn; lra | apply bpow_le; lia]].
Qed.
Lemma ordinary_int n : (1 <= n < 16777216)%Z -> ordinary (float_of_int n) /\ B2R 24 128 (float_of_int n) = IZR n.
Proof.
  intros H. destruct (int_ok n ltac:(lia)) as [E F]. split; [| exact E]. split; [exact F |].
  assert (1 <= IZR n <= 16777216) as R by (split; [apply (IZR_le 1) | apply (IZR_le _ 16777216)]; lia). rewrite E.
  split; [apply Rle_trans with (bpow radix2 0); [apply bpow_le; lia | cbn; lra] | apply Rle_trans with (bpow radix2 24); [change (bpow radix2 24) with 16777216; lra | apply bpow_le; lia]].
Qed.
Example C88_nonvacuous_bb : let sh := mk_bb_shared (b32_of_bits 1056964608) (float_of_int 3) in let g := mk_bb 7 0 in
  good_log2 log2_witness /\ ordinary (bb_alpha sh) /\ ordinary (bb_beta sh) /\ (0 <= bb_heads g < 2 ^ 31)%Z /\ (0 <= bb_tails g < 2 ^ 31)%Z.
Proof.
  cbn [bb_alpha bb_beta bb_heads bb_tails]. split; [exact log2_witness_good |]. split; [apply ordinary_half |]. split; [apply ordinary_int; lia | lia].
Qed.
Example C88_nonvacuous_py : let m := mk_py (float_of_int 1) (b32_of_bits 1056964608) in
  ordinary (alpha m) /\ discount (disc m) /\ sizes_ok [0; 3]%Z /\ dhistory [0; 3]%Z [DAdd 0 2; DRem 1 3]%Z [2; 0]%Z [true; true].
Proof.
  cbn [alpha disc]. split; [apply ordinary_int; lia |]. split.
  - destruct ordinary_half as [[F [L U]] E]. split; [exact F |]. split; [right; exact L | rewrite E; lra].
  - split; [repeat split; [repeat constructor; lia | left; reflexivity] |].
    eapply dh_cons; [apply (add_to_empty [] [3%Z]); lia | cbn; lia | cbn].
    eapply dh_cons; [apply (rem_all_inner [2%Z] 3 [] 0); lia | cbn; lia | cbn]. constructor.
Qed.
Example C88_nonvacuous_dd : let sh := mk_dd_shared [b32_of_bits 1056964608; float_of_int 3; float_of_int 1] in let g := mk_dd [4; 0; 2]%Z 6 in
  List.Forall ordinary (dd_alphas sh) /\ List.Forall (fun c => 0 <= c < 2 ^ 31)%Z (dd_counts g) /\
  length (dd_counts g) = length (dd_alphas sh) /\ (Z.of_nat (length (dd_alphas sh)) <= 524288)%Z /\
  nth_error (dd_alphas sh) 2 = Some (float_of_int 1) /\ nth_error (dd_counts g) 2 = Some 2%Z.
Proof.
  cbn [dd_alphas dd_counts]. split; [apply List.Forall_cons; [apply ordinary_half |]; apply List.Forall_cons; [apply ordinary_int; lia |]; apply List.Forall_cons; [apply ordinary_int; lia | apply List.Forall_nil] |].
  split; [repeat constructor; lia |]. repeat split. cbn. lia.
Qed.
Example C88_nonvacuous_dpd : let sh := mk_dpd_shared (float_of_int 1) (float_of_int 2) (b32_of_bits 1056964608) {[ 5%Z := b32_of_bits 1056964608 ]} (mk_counter ∅ (Some 0%Z)) in
  let g := mk_counter {[ 5%Z := 4%Z ]} (Some 4%Z) in
  ordinary (dp_alpha sh) /\ ctr_get_total g = Ok 4%Z /\ ctr_get_count g 5 = 4%Z /\
  dp_betas sh !! 5%Z = Some (b32_of_bits 1056964608) /\ ordinary (b32_of_bits 1056964608) /\ (5 =? OTHER)%Z = false.
Proof.
  cbn [dp_alpha dp_betas dp_beta0]. split; [apply ordinary_int; lia |]. split; [reflexivity |]. split; [reflexivity |].
  split; [apply lookup_singleton |]. split; [apply ordinary_half | reflexivity].
Qed.
