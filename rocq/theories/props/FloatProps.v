(** C81: drawing from scores with the rounding of single precision.  The functions quantified over (table of
    roots, literals, logarithms, ...) are those the code below does not call, except the table. *)
From Coq Require Import Reals Lra ZArith List.
From Flocq Require Import Core BinarySingleNaN Binary Bits.
From Verif.model Require Import Base Num ExpTable FastExp FloatNum VectorMath Random.
From Verif.spec Require Import ExpSpec PartitionSpec RandomSpec FloatSpec.
From Verif.proof Require Import FastExpProof ExpTableProof RandomProof FloatScoresProof.
Import ListNotations.
Local Open Scope R_scope.

(** Likelihoods: nothing undefined is called, the largest score gets exactly 1, the others are close to
    exp(score - largest), and the total is close to the sum of the likelihoods. *)
Theorem C81_likelihoods : forall tbl lit lg lgam lgam_nu lfact sq pw (l : list binary32),
  faithful_table tbl -> l <> [] -> (Z.of_nat (length l) <= 1048576)%Z ->
  Forall (fun s => is_finite 24 128 s = true /\ Rabs (B2R 24 128 s) <= 500000000) l ->
  exists m ls total, In m l /\ (forall s, In s l -> B2R 24 128 s <= B2R 24 128 m) /\
    scores_to_likelihoods (N := NumB tbl lit lg lgam lgam_nu lfact sq pw) l = Ok (ls, total) /\
    Forall2 (fun s y => fast_exp tbl (b32_minus mode_NE s m) = Ok y /\ is_finite 24 128 y = true /\ 0 <= B2R 24 128 y /\
      let d := B2R 24 128 s - B2R 24 128 m in
      (d = 0 -> B2R 24 128 y = 1) /\
      (-87 <= d -> Rabs (B2R 24 128 y - exp d) <= (2 * Rabs d + 9) / 8388608 * exp d) /\
      (d < -87 -> B2R 24 128 y <= bpow radix2 (-124))) l ls /\
    is_finite 24 128 total = true /\ 1 <= rsum (map (B2R 24 128) ls) /\
    Rabs (B2R 24 128 total - rsum (map (B2R 24 128) ls)) <= INR (length l) / 8000000 * rsum (map (B2R 24 128) ls).
Proof.
  intros tbl lit lg lgam lgam_nu lfact sq pw l HT H1 H2 H3.
  destruct (likelihoods_b32 tbl HT lit lg lgam lgam_nu lfact sq pw l (conj H1 (conj H2 H3)))
    as (m & ls & total & A & B & C & D & E).
  exists m, ls, total. split; [exact A |]. split; [exact B |]. split; [exact C |]. split; [| exact E].
  clear - D. induction D as [| s y l ls (D1 & D2 & D3 & D4 & D5 & D6) _ IH]; constructor; [| exact IH].
  repeat split; try assumption. intros H. apply D4. lra.
Qed.
Print Assumptions C81_likelihoods.

(** Sampling: the index drawn is the inverse of the cumulative softmax probabilities at u, up to
    1/15000 + n/3500000. *)
Theorem C81_sample : forall tbl lit lg lgam lgam_nu lfact sq pw (l : list binary32) (u : binary32),
  faithful_table tbl -> l <> [] -> (Z.of_nat (length l) <= 1048576)%Z ->
  Forall (fun s => is_finite 24 128 s = true /\ Rabs (B2R 24 128 s) <= 500000000) l ->
  is_finite 24 128 u = true -> 0 <= B2R 24 128 u <= 1 ->
  exists i ls, sample_from_scores_overwrite (N := NumB tbl lit lg lgam lgam_nu lfact sq pw) u l = Ok (i, ls) /\
    (i < length l)%nat /\
    cum (softmax (map (B2R 24 128) l)) i - (1 / 15000 + INR (length l) / 3500000) <= B2R 24 128 u <=
    cum (softmax (map (B2R 24 128) l)) (S i) + (1 / 15000 + INR (length l) / 3500000).
Proof.
  intros tbl lit lg lgam lgam_nu lfact sq pw l u HT H1 H2 H3 Fu Hu.
  exact (sample_b32 tbl HT lit lg lgam lgam_nu lfact sq pw l u (conj H1 (conj H2 H3)) Fu Hu).
Qed.
Print Assumptions C81_sample.

(** Probabilities: each differs from the softmax probability by at most 1/15000 + n/3500000. *)
Theorem C81_probs : forall tbl lit lg lgam lgam_nu lfact sq pw (l : list binary32),
  faithful_table tbl -> l <> [] -> (Z.of_nat (length l) <= 1048576)%Z ->
  Forall (fun s => is_finite 24 128 s = true /\ Rabs (B2R 24 128 s) <= 500000000) l ->
  exists ps, scores_to_probs (N := NumB tbl lit lg lgam lgam_nu lfact sq pw) l = Ok ps /\
    Forall2 (fun p q => is_finite 24 128 p = true /\ 0 <= B2R 24 128 p /\
      Rabs (B2R 24 128 p - q) <= 1 / 15000 + INR (length l) / 3500000) ps (softmax (map (B2R 24 128) l)).
Proof.
  intros tbl lit lg lgam lgam_nu lfact sq pw l HT H1 H2 H3.
  exact (probs_b32 tbl HT lit lg lgam lgam_nu lfact sq pw l (conj H1 (conj H2 H3))).
Qed.
Print Assumptions C81_probs.

Definition sixteen_below (k : nat) : list binary32 :=
  float_of_int 0 :: repeat (float_of_int (-16)) k ++ [float_of_int (-1000)].

Local Lemma values k : map (B2R 24 128) (sixteen_below k) = 0 :: repeat (-16) k ++ [-1000].
Proof.
  unfold sixteen_below. cbn [map]. rewrite map_app. cbn [map].
  assert (forall x, map (B2R 24 128) (repeat x k) = repeat (B2R 24 128 x) k) as ->
    by (intros x; induction k as [| k IH]; cbn [repeat map]; congruence).
  rewrite (proj1 (int_ok 0 eq_refl)), (proj1 (int_ok (-16) eq_refl)), (proj1 (int_ok (-1000) eq_refl)). reflexivity.
Qed.

(** The rounded total can exceed the sum of the likelihoods, and then the loop runs off the end: with scores
    0, eighteen times -16 and -1000, some draw u < 1 chooses the last index, of probability below exp(-1000). *)
Theorem C81_improbable_index_refuted : forall lit lg lgam lgam_nu lfact sq pw,
  exists (l : list binary32) u i ls,
    Forall (fun s => is_finite 24 128 s = true /\ Rabs (B2R 24 128 s) <= 500000000) l /\
    is_finite 24 128 u = true /\ 0 <= B2R 24 128 u < 1 /\
    sample_from_scores_overwrite (N := NumB exp_table lit lg lgam lgam_nu lfact sq pw) u l = Ok (i, ls) /\
    exists q, nth_error (softmax (map (B2R 24 128) l)) i = Some q /\ 0 < q < exp (-1000).
Proof.
  intros. exists (sixteen_below 18), (b32_of_bits (126 * 8388608 + 8388607)), 19%nat.
  assert (match sample_from_scores_overwrite (N := NumB exp_table lit lg lgam lgam_nu lfact sq pw)
      (b32_of_bits (126 * 8388608 + 8388607)) (sixteen_below 18) with Ok (i, _) => Some i | _ => None end = Some 19%nat) as C
    by (vm_compute; reflexivity).
  destruct (sample_from_scores_overwrite _ _) as [[i ls] | |]; try discriminate C. injection C as ->.
  exists ls. split.
  { destruct (int_ok 0 eq_refl) as [E0 F0]. destruct (int_ok (-16) eq_refl) as [E1 F1].
    destruct (int_ok (-1000) eq_refl) as [E2 F2].
    constructor; [split; [exact F0 | rewrite E0; apply Rabs_le; lra] |].
    apply Forall_app. split; [| constructor; [split; [exact F2 | rewrite E2; apply Rabs_le; lra] | constructor]].
    apply Forall_forall. intros s Hs. apply repeat_spec in Hs. subst s.
    split; [exact F1 | rewrite E1; apply Rabs_le; lra]. }
  destruct (bits_ok 126 8388607 ltac:(lia) ltac:(lia)) as [Fu Eu].
  split; [exact Fu |]. split; [rewrite Eu; cbn; lra |].
  split; [reflexivity |]. rewrite values. eexists. split; [reflexivity |].
  pose proof (exp_pos (-16)) as P16. pose proof (exp_pos (-1000)) as P. pose proof exp_0 as P0.
  unfold Rdiv. cbn [repeat app map rsum].
  match goal with |- 0 < exp (-1000) * / ?w < _ => assert (1 < w) as H by lra; generalize dependent w end.
  intros w Hw. assert (0 < / w < 1) as Hi.
  { split; [apply Rinv_0_lt_compat; lra |]. rewrite <- Rinv_1. apply Rinv_lt_contravar; lra. }
  split; [apply Rmult_lt_0_compat; lra |]. rewrite <- (Rmult_1_r (exp (-1000))) at 2. apply Rmult_lt_compat_l; lra.
Qed.
Print Assumptions C81_improbable_index_refuted.

(** The scores above meet the hypotheses of the theorems. *)
Example sixteen_below_ok : sixteen_below 18 <> [] /\ (Z.of_nat (length (sixteen_below 18)) <= 1048576)%Z /\
  Forall (fun s => is_finite 24 128 s = true /\ Rabs (B2R 24 128 s) <= 500000000) (sixteen_below 18).
Proof.
  split; [discriminate |]. split; [vm_compute; discriminate |].
  destruct (int_ok 0 eq_refl) as [E0 F0]. destruct (int_ok (-16) eq_refl) as [E1 F1].
  destruct (int_ok (-1000) eq_refl) as [E2 F2].
  constructor; [split; [exact F0 | rewrite E0; apply Rabs_le; lra] |].
  apply Forall_app. split; [| constructor; [split; [exact F2 | rewrite E2; apply Rabs_le; lra] | constructor]].
  apply Forall_forall. intros s Hs. apply repeat_spec in Hs. subst s.
  split; [exact F1 | rewrite E1; apply Rabs_le; lra].
Qed.
