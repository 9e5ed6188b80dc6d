(** C96: DirichletProcessDiscrete::score_data in single precision. *)
From Coq Require Import List Reals Lra ZArith Lia Bool Permutation.
From Flocq Require Import Core BinarySingleNaN Binary Bits.
From Verif.model Require Import Base Num Component Sparse DPD FastExp FloatNum FastLog FastLgamma FloatStirling Student FloatCount.
From Verif.spec Require Import LogSpec DrawSpec StudentSpec CountSpec.
From Verif.proof Require Import FastExpProof FloatRel FloatPredictive FloatCountScores FloatCountModels FloatCountDD FloatCountDPD.
From Verif.props Require Import FloatCountProps.
From stdpp Require Import gmap.
Local Open Scope R_scope.

(** For every order in which the hash map of counts may be visited, score_data is the logarithm of the probability of the
    values under the Dirichlet process; [bs] are the betas of the values in that order. *)
Theorem C96_dpd_data : forall tbl lg daz libm log2 sq pw, is_log_gamma lg -> good_lgammaf lg libm ->
  let N := NumC tbl log2 daz libm sq pw in
  forall dl (sh : dpd_shared binary32) (g : counter) order bs, Permutation order (map_to_list (cmap g)) ->
  let alpha := B2R 24 128 (dp_alpha sh) in let al := map (fun b => alpha * B2R 24 128 b) bs in let cs := map snd order in
  let n := INR (length order) in let total := IZR (fold_right Z.add 0%Z cs) in let masses := fold_right Rplus 0 al in
  moderate (dp_alpha sh) ->
  List.Forall2 (fun vc b => dp_betas sh !! vc.1 = Some b /\ (0 <= vc.2)%Z /\ is_finite 24 128 b = true /\
    bpow radix2 (-20) <= alpha * B2R 24 128 b <= bpow radix2 20) order bs ->
  ctotal g = Some (fold_right Z.add 0%Z cs) -> n <= 1024 -> alpha + total <= bpow radix2 20 -> masses + total <= bpow radix2 20 ->
  exists s, dpd_score_data (N:=N) dl sh g order = Ok s /\ is_finite 24 128 s = true /\
  Rabs (B2R 24 128 s - dp_data lg alpha al cs)
    <= (6 / 1000000 + / 10000000 * n) * dp_size lg alpha al cs + / 10000 * (alpha + masses + total) + / 1000 * (n + 1).
Proof.
  intros tbl lg daz libm log2 sq pw HG HL N dl sh g order bs _ alpha al cs n total masses Ma F Ht Hn U1 U2.
  assert (length al = length cs) as La by (unfold al, cs; rewrite !map_length; symmetry; exact (Forall2_length _ _ _ F)).
  assert (masses = pair_sum fA al cs) as EM.
  { unfold masses. clear - La. revert La. generalize cs. induction al as [| a l IH]; intros [| c t] H; try discriminate; cbn [pair_sum fold_right]; [reflexivity |]. rewrite IH with (cs := t) by (cbn in H; lia). reflexivity. }
  pose proof (counts_sum al cs La) as ES. rewrite EM in *.
  assert (0 < alpha) as Pa by (destruct Ma as [_ [Q _]]; pose proof (bpow_gt_0 radix2 (-20)); fold alpha in Q; lra).
  refine (dpd_data tbl lg daz libm log2 sq pw HG HL dl sh Ma g order bs _ _ _ _ _ U1 U2).
  - eapply Forall2_impl; [exact F |]. intros vc b (A & B & C & D). repeat split; try assumption; try apply D.
    destruct D as [D _]. pose proof (bpow_gt_0 radix2 (-20)). fold (b2r b) in D. destruct (Rle_lt_dec (b2r b) 0) as [Q | Q]; [| exact Q].
    assert (alpha * b2r b <= alpha * 0) by (apply Rmult_le_compat_l; lra). lra.
  - unfold ctr_get_total. rewrite Ht. reflexivity.
  - symmetry. exact ES.
  - apply le_IZR. rewrite <- INR_IZR_INZ. exact Hn.
Qed.
Print Assumptions C96_dpd_data.

(** Two possible values out of three, in a group filled with four values. *)
Example C96_nonvacuous_dpd : let half := b32_of_bits 1056964608 in
  let sh := mk_dpd_shared (float_of_int 1) (float_of_int 4) half (<[ 7%Z := half ]> {[ 9%Z := float_of_int 1 ]}) ctr_new in
  moderate (dp_alpha sh) /\ B2R 24 128 half = / 2 /\ dp_betas sh !! 7%Z = Some half /\ dp_betas sh !! 9%Z = Some (float_of_int 1) /\
  exists g, c_filled (DPD binary32) 3 sh [7; 9; 7; 7]%Z = Ok g /\ ctotal g = Some 4%Z /\ Permutation [(7, 3); (9, 1)]%Z (map_to_list (cmap g)).
Proof.
  cbv zeta. cbn [dp_alpha dp_betas]. split; [apply moderate_int; lia |]. split.
  { assert (B2FF 24 128 (b32_of_bits 1056964608) = F754_finite false 8388608 (-24)) as E by (vm_compute; reflexivity).
    rewrite <- FF2R_B2FF, E. unfold FF2R, F2R. cbn [Fnum Fexp cond_Zopp]. change (bpow radix2 (-24)) with (/ 16777216). lra. }
  split; [apply lookup_insert |]. split; [rewrite lookup_insert_ne by discriminate; apply lookup_singleton |].
  eexists. split; [reflexivity |]. split; [reflexivity |]. vm_compute. repeat constructor.
Qed.
