(** C96: the scores of GammaPoisson, BetaNegativeBinomial, BetaBernoulli and DirichletDiscrete that are made from fast_lgamma,
    fast_log_factorial and fast_log, in single precision.  [lg] is the logarithm of Euler's Gamma, [libm] is lgammaf,
    [log2] is libm's log2, which fills the table of fast_log, and [daz] says whether denormals are taken for zero. *)
From Coq Require Import Reals Lra ZArith Lia Bool List.
From Flocq Require Import Core BinarySingleNaN Binary Bits.
From Verif.model Require Import Base Num FastExp FloatNum FastLog FastLgamma FloatStirling Student FloatCount Component BB GP BNB DD.
From Verif.spec Require Import LogSpec DrawSpec StudentSpec CountSpec.
From Verif.proof Require Import FastExpProof FastLogProof FloatScoresProof FloatRel FloatOfReal FloatStirlingProof LnBounds FloatCountScores FloatCountModels FloatCountDD.
From Verif.props Require Import FloatScoreProps StudentProps DrawProps.
Import ListNotations.
Local Open Scope R_scope.

(** BetaNegativeBinomial: score_value, and the same made from a cached Scorer, are the logarithm of the ratio of Beta
    functions of the exact posterior, to within an error relative to the log-gammas involved. *)
Theorem C96_bnb_value : forall tbl lg daz libm log2 sq pw, is_log_gamma lg -> good_lgammaf lg libm ->
  let N := NumC tbl log2 daz libm sq pw in
  forall (sh : bnb_shared binary32) (g : bnb_group) (v : Z), moderate (bnb_alpha sh) -> moderate (bnb_beta sh) ->
  (0 <= bnb_r sh <= 1048576)%Z -> (0 <= bnb_count g < 4294967296)%Z -> (0 <= bnb_sum g)%Z -> (0 <= v)%Z ->
  let a := B2R 24 128 (bnb_alpha sh) + IZR (bnb_r sh * bnb_count g) in let b := B2R 24 128 (bnb_beta sh) + IZR (bnb_sum g) in
  let a' := a + IZR (bnb_r sh) in let b' := b + IZR v in a' + b' <= bpow radix2 20 ->
  forall s, s = bnb_score_value (N:=N) sh g v \/ s = bnb_scorer_eval (N:=N) (bnb_scorer_init (N:=N) sh g) v ->
  is_finite 24 128 s = true /\
  Rabs (B2R 24 128 s - (log_beta_fn lg a' b' - log_beta_fn lg a b))
    <= 6 / 1000000 * (beta_size lg a' b' + beta_size lg a b) + / 10000 * (a + b + (a' + b')) + 2 / 1000.
Proof.
  intros tbl lg daz libm log2 sq pw HG HL N sh g v Ma Mb Hr Hn Hs Hv a b a' b' U s E.
  destruct (bnb_value tbl lg daz libm log2 sq pw HG HL sh g Ma Mb Hr Hn Hs v Hv U) as [V1 V2]. destruct E as [-> | ->]; [exact V1 | exact V2].
Qed.
Print Assumptions C96_bnb_value.

(** BetaNegativeBinomial: score_data. *)
Theorem C96_bnb_data : forall tbl lg daz libm log2 sq pw, is_log_gamma lg -> good_lgammaf lg libm ->
  let N := NumC tbl log2 daz libm sq pw in
  forall (sh : bnb_shared binary32) (g : bnb_group), moderate (bnb_alpha sh) -> moderate (bnb_beta sh) ->
  (0 <= bnb_r sh <= 1048576)%Z -> (0 <= bnb_count g < 4294967296)%Z -> (0 <= bnb_sum g)%Z ->
  let a := B2R 24 128 (bnb_alpha sh) in let b := B2R 24 128 (bnb_beta sh) in
  let a' := a + IZR (bnb_r sh * bnb_count g) in let b' := b + IZR (bnb_sum g) in a' + b' <= bpow radix2 20 ->
  let s := bnb_score_data (N:=N) sh g in
  is_finite 24 128 s = true /\
  Rabs (B2R 24 128 s - (log_beta_fn lg a' b' - log_beta_fn lg a b))
    <= 6 / 1000000 * (beta_size lg a' b' + beta_size lg a b) + / 10000 * (a + b + (a' + b')) + 2 / 1000.
Proof.
  intros tbl lg daz libm log2 sq pw HG HL N sh g Ma Mb Hr Hn Hs a b a' b' U.
  exact (bnb_data tbl lg daz libm log2 sq pw HG HL sh g Ma Mb Hr Hn Hs U).
Qed.
Print Assumptions C96_bnb_data.

(** BetaBernoulli: score_data. *)
Theorem C96_bb_data : forall tbl lg daz libm log2 sq pw, is_log_gamma lg -> good_lgammaf lg libm ->
  let N := NumC tbl log2 daz libm sq pw in
  forall (sh : bb_shared binary32) (g : bb_group), moderate (bb_alpha sh) -> moderate (bb_beta sh) ->
  (0 <= bb_heads g)%Z -> (0 <= bb_tails g)%Z ->
  let a := B2R 24 128 (bb_alpha sh) in let b := B2R 24 128 (bb_beta sh) in
  let a' := a + IZR (bb_heads g) in let b' := b + IZR (bb_tails g) in a' + b' <= bpow radix2 20 ->
  let s := bb_score_data (N:=N) sh g in
  is_finite 24 128 s = true /\
  Rabs (B2R 24 128 s - (log_beta_fn lg a' b' - log_beta_fn lg a b))
    <= 6 / 1000000 * (beta_size lg a' b' + beta_size lg a b) + / 10000 * (a + b + (a' + b')) + 2 / 1000.
Proof.
  intros tbl lg daz libm log2 sq pw HG HL N sh g Ma Mb Hh Ht a b a' b' U.
  exact (bb_data_close tbl lg daz libm log2 sq pw HG HL sh g Ma Mb Hh Ht U).
Qed.
Print Assumptions C96_bb_data.

(** The error is relative to the log-gammas and not to the score: with 3 pseudo-heads and 4194300 pseudo-tails, one head
    has probability 3 / 4194303, but score_data makes more than 5 of its logarithm. *)
Theorem C96_bb_data_refuted : exists (sh : bb_shared binary32) (g : bb_group),
  B2R 24 128 (bb_alpha sh) = 3 /\ B2R 24 128 (bb_beta sh) = 4194300 /\ bb_heads g = 1%Z /\ bb_tails g = 0%Z /\
  ln (3 / 4194303) < - (14) /\
  forall tbl daz libm log2 sq pw, let s := bb_score_data (N:=NumC tbl log2 daz libm sq pw) sh g in
  is_finite 24 128 s = true /\ 5 < B2R 24 128 s.
Proof.
  exists (mk_bb_shared (float_of_int 3) (float_of_int 4194300)), (mk_bb 1 0). cbn [bb_alpha bb_beta bb_heads bb_tails].
  destruct (int_ok 3 ltac:(lia)) as [V3 _]. destruct (int_ok 4194300 ltac:(lia)) as [V4 _].
  split; [exact V3 |]. split; [exact V4 |]. split; [reflexivity |]. split; [reflexivity |]. split.
  - apply Rle_lt_trans with (ln (/ 1328092)); [apply ln_le'; lra |]. rewrite ln_Rinv by lra.
    assert (14 < ln 1328092); [| lra]. apply Rlt_le_trans with (ln (2 ^ 20 * (1266 / 1000))); [| apply ln_le'; lra].
    rewrite ln_mult, ln_pow by lra. replace (INR 20) with 20 by (rewrite INR_IZR_INZ; reflexivity). pose proof ln2_lo.
    assert (2 / 10 <= ln (1266 / 1000)); [| lra]. pose proof (ln_sub (1266 / 1000) 1 ltac:(lra) ltac:(lra)) as L. rewrite ln_1 in L. lra.
  - intros tbl daz libm log2 sq pw. match goal with |- _ /\ 5 < B2R 24 128 ?t => set (s := t) end. assert (B2FF 24 128 s = F754_finite false 10692484 (-21)) as E by (destruct daz; vm_compute; reflexivity).
    split.
    + clearbody s. destruct s; try discriminate E; reflexivity.
    + rewrite <- FF2R_B2FF, E. unfold FF2R, F2R. cbn [Fnum Fexp cond_Zopp]. change (bpow radix2 (-21)) with (/ 2097152). lra.
Qed.
Print Assumptions C96_bb_data_refuted.

(** GammaPoisson: score_value is the logarithm of the negative binomial probability of the exact posterior. *)
Theorem C96_gp_value : forall tbl lg daz libm log2 sq pw, is_log_gamma lg -> good_lgammaf lg libm -> good_log2 log2 ->
  let N := NumC tbl log2 daz libm sq pw in
  forall (sh : gp_shared binary32) (g : gp_group binary32) (v : nat), moderate (gp_alpha sh) -> ordinary (gp_inv_beta sh) ->
  (0 <= gp_sum g)%Z -> (0 <= gp_count g <= 4294967296)%Z ->
  let A := B2R 24 128 (gp_alpha sh) + IZR (gp_sum g) in let B := B2R 24 128 (gp_inv_beta sh) + IZR (gp_count g) in
  A + INR v <= bpow radix2 20 ->
  let s := gp_score_value (N:=N) sh g (Z.of_nat v) in
  is_finite 24 128 s = true /\
  Rabs (B2R 24 128 s - gamma_poisson lg A B v)
    <= 6 / 1000000 * (Rabs (lg A) + Rabs (lg (A + INR v)) + ln (INR (fact v))) + 2 / 10000 * (A + INR v) + / 1000.
Proof.
  intros tbl lg daz libm log2 sq pw HG HL H2 N sh g v Ma Ob Hs Hn A B U.
  exact (gp_value tbl lg daz libm log2 sq pw HG HL H2 sh g v Ma Ob Hs Hn U).
Qed.
Print Assumptions C96_gp_value.

(** GammaPoisson: a group made from any values keeps the sum of their log-factorials, and its score_data is the logarithm
    of their probability. *)
Theorem C96_gp_data : forall tbl lg daz libm log2 sq pw, is_log_gamma lg -> good_lgammaf lg libm -> good_log2 log2 ->
  let N := NumC tbl log2 daz libm sq pw in
  forall dl (sh : gp_shared binary32) (l : list nat), moderate (gp_alpha sh) -> ordinary (gp_inv_beta sh) -> (Z.of_nat (length l) <= 1048576)%Z ->
  let alpha := B2R 24 128 (gp_alpha sh) in let A := alpha + INR (list_sum l) in A <= bpow radix2 20 ->
  let n := INR (length l) in let S := sum_log_fact l in
  exists g, c_filled (GP binary32 (N:=N)) dl sh (map Z.of_nat l) = Ok g /\
    is_finite 24 128 (gp_log_prod g) = true /\
    Rabs (B2R 24 128 (gp_log_prod g) - S) <= (5 / 1000000 + 7 / 100000000 * n) * S + 2 / 1000000000 * n /\
    let s := gp_score_data (N:=N) sh g in
    is_finite 24 128 s = true /\
    Rabs (B2R 24 128 s - gamma_poisson_data lg alpha (B2R 24 128 (gp_inv_beta sh)) l)
      <= 6 / 1000000 * (Rabs (lg alpha) + Rabs (lg A)) + 2 / 10000 * (alpha + A) + (6 / 1000000 + 7 / 100000000 * n) * S + 4 / 1000.
Proof.
  intros tbl lg daz libm log2 sq pw HG HL H2 N dl sh l Ma Ob Hl alpha A U n S.
  exact (gp_data tbl lg daz libm log2 sq pw HG HL H2 dl sh l Ma Ob Hl U).
Qed.
Print Assumptions C96_gp_data.

(** DirichletDiscrete: score_data of any counts is the logarithm of the Dirichlet-multinomial probability, for up to 1024
    possible values. *)
Lemma counts_sum al : forall cs, length al = length cs -> pair_sum (fun _ c => IZR c) al cs = IZR (fold_right Z.add 0%Z cs).
Proof.
  induction al as [| a al IH]; intros [| c cs] H; try discriminate; cbn [pair_sum fold_right]; [reflexivity |]. rewrite plus_IZR, IH by (cbn in H; lia). reflexivity.
Qed.
Theorem C96_dd_data : forall tbl lg daz libm log2 sq pw, is_log_gamma lg -> good_lgammaf lg libm ->
  let N := NumC tbl log2 daz libm sq pw in
  forall (sh : dd_shared binary32) (g : dd_group), let al := map (B2R 24 128) (dd_alphas sh) in let cs := dd_counts g in
  let n := INR (length cs) in let total := pair_sum (fun a c => a + IZR c) al cs in
  List.Forall moderate (dd_alphas sh) -> length (dd_alphas sh) = length cs -> 1 <= n <= 1024 ->
  List.Forall (fun c => 0 <= c)%Z cs -> dd_count_sum g = fold_right Z.add 0%Z cs -> total <= bpow radix2 20 ->
  exists s, dd_score_data (N:=N) sh g = Ok s /\ is_finite 24 128 s = true /\
  Rabs (B2R 24 128 s - dirichlet_data lg al cs)
    <= (6 / 1000000 + / 10000000 * n) * dirichlet_size lg al cs + (/ 10000 + 8 / 1000000 * n) * total + / 1000 * (n + 1).
Proof.
  intros tbl lg daz libm log2 sq pw HG HL N sh g al cs n total Hm Hl Hn Hc Hs HU.
  assert (length al = length cs) as La by (unfold al; now rewrite map_length).
  assert (total = pair_sum (fA) al cs + pair_sum fN al cs) as ET.
  { unfold total. clear - La. revert La. generalize cs. induction al as [| a l IH]; intros [| c t] H; try discriminate; cbn [pair_sum]; [ring |]. rewrite IH by (cbn in H; lia). unfold fA, fN. ring. }
  rewrite ET in HU |- *. apply (dd_data tbl lg daz libm log2 sq pw HG HL sh g); try assumption.
  - apply INR_le. exact (proj1 Hn).
  - apply le_IZR. rewrite <- INR_IZR_INZ. exact (proj2 Hn).
  - rewrite Hs. symmetry. exact (counts_sum al cs La).
Qed.
Print Assumptions C96_dd_data.

(** Such functions exist, and whole numbers are such parameters. *)
Lemma moderate_int n : (1 <= n <= 1048576)%Z -> moderate (float_of_int n) /\ B2R 24 128 (float_of_int n) = IZR n.
Proof.
  intros H. destruct (int_ok n ltac:(lia)) as [V F]. split; [| exact V]. split; [exact F |]. fold (b2r (float_of_int n)). rewrite V.
  assert (bpow radix2 (-20) <= bpow radix2 0) by (apply bpow_le; lia). change (bpow radix2 0) with 1 in *. change (bpow radix2 20) with 1048576.
  split; [| apply IZR_le; lia]. assert (1 <= IZR n) by (apply IZR_le; lia). lra.
Qed.
Example C96_functions_exist : exists lg libm log2, is_log_gamma lg /\ good_lgammaf lg libm /\ good_log2 log2.
Proof. destruct C84_log_gamma as [[lg HG] _]. exists lg, (fun x => of_real (lg (B2R 24 128 x))), log2_witness. split; [exact HG |]. split; [now apply C92_lgammaf_exists | exact log2_witness_good]. Qed.
Example C96_nonvacuous_bnb : let sh := mk_bnb_shared (float_of_int 2) (float_of_int 5) 3 in let g := mk_bnb 4 11 in
  moderate (bnb_alpha sh) /\ moderate (bnb_beta sh) /\
  B2R 24 128 (bnb_alpha sh) + IZR (bnb_r sh * bnb_count g) + IZR (bnb_r sh) + (B2R 24 128 (bnb_beta sh) + IZR (bnb_sum g) + IZR 6) <= bpow radix2 20.
Proof.
  cbv zeta. cbn [bnb_alpha bnb_beta bnb_r bnb_count bnb_sum]. destruct (moderate_int 2 ltac:(lia)) as [M2 V2]. destruct (moderate_int 5 ltac:(lia)) as [M5 V5].
  split; [exact M2 |]. split; [exact M5 |]. rewrite V2, V5. change (bpow radix2 20) with 1048576. change (3 * 4)%Z with 12%Z. lra.
Qed.
(** Three values added to an empty group. *)
Example C96_nonvacuous_gp : let sh := mk_gp_shared (float_of_int 1) (float_of_int 2) in let l := [2; 0; 70]%nat in
  moderate (gp_alpha sh) /\ ordinary (gp_inv_beta sh) /\ B2R 24 128 (gp_alpha sh) + INR (list_sum l) <= bpow radix2 20 /\ 0 < sum_log_fact l.
Proof.
  cbv zeta. cbn [gp_alpha gp_inv_beta]. destruct (moderate_int 1 ltac:(lia)) as [M1 V1]. destruct (moderate_int 2 ltac:(lia)) as [M2 _].
  split; [exact M1 |]. split; [now apply moderate_ord |]. split.
  - rewrite V1, INR_IZR_INZ. change (Z.of_nat (list_sum [2; 0; 70]%nat)) with 72%Z. change (bpow radix2 20) with 1048576. lra.
  - cbn [sum_log_fact]. pose proof (logfact_nonneg 70) as P. unfold logfact in P. change (fact 2) with 2%nat. change (fact 0) with 1%nat. cbn [INR]. rewrite ln_1.
    replace (1 + 1) with 2 by ring. pose proof ln2_lo. lra.
Qed.
(** A group of three possible values to which seven values were added. *)
Example C96_nonvacuous_dd : let sh := mk_dd_shared [float_of_int 1; float_of_int 2; float_of_int 5] in
  exists g, c_filled (DD binary32) 3 sh [0; 2; 2; 1; 0; 0; 2]%Z = Ok g /\
  dd_counts g = [3; 1; 3]%Z /\ dd_count_sum g = fold_right Z.add 0%Z (dd_counts g) /\ List.Forall moderate (dd_alphas sh).
Proof.
  eexists. split; [reflexivity |]. split; [reflexivity |]. split; [reflexivity |]. cbn [dd_alphas].
  repeat (apply List.Forall_cons; [apply moderate_int; lia |]). apply List.Forall_nil.
Qed.
