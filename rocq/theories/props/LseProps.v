(** C90: sums of exponentials in logarithms, in single precision. *)
From Coq Require Import Reals Lra Lia ZArith List.
From Flocq Require Import Core BinarySingleNaN Binary Bits.
From Verif.model Require Import Base Num FastExp ExpTable FloatNum FastLog VectorMath Random FloatLse.
From Verif.spec Require Import ExpSpec PartitionSpec FloatSpec LogSpec LseSpec.
From Verif.proof Require Import FastExpProof ExpTableProof FastLogProof FloatScoresProof FloatLseProof FloatOfReal.
Import ListNotations.
Local Open Scope R_scope.

(** fast_log_sum_exp of two finite scores: nothing undefined is called, and the result is log(exp x + exp y) to
    within about 10^-4 and one rounding of the larger. *)
Theorem C90_fast_log_sum_exp : forall tbl log2 (x y : binary32), faithful_table tbl -> good_log2 log2 ->
  is_finite 24 128 x = true -> is_finite 24 128 y = true -> Rabs (B2R 24 128 x) <= 500000000 -> Rabs (B2R 24 128 y) <= 500000000 ->
  exists r, fast_lse tbl log2 x y = Ok r /\ is_finite 24 128 r = true /\
    Rabs (B2R 24 128 r - ln (exp (B2R 24 128 x) + exp (B2R 24 128 y))) <= / 9500 + Rmax (Rabs (B2R 24 128 x)) (Rabs (B2R 24 128 y)) / 16000000.
Proof. exact fast_lse_b32. Qed.
Print Assumptions C90_fast_log_sum_exp.

(** log_sum_exp of two finite scores, with libm's expf and logf: forty times closer. *)
Theorem C90_log_sum_exp : forall expf logf (x y : binary32), good_expf expf -> good_logf logf ->
  is_finite 24 128 x = true -> is_finite 24 128 y = true -> Rabs (B2R 24 128 x) <= 500000000 -> Rabs (B2R 24 128 y) <= 500000000 ->
  is_finite 24 128 (lse32 expf logf x y) = true /\
  Rabs (B2R 24 128 (lse32 expf logf x y) - ln (exp (B2R 24 128 x) + exp (B2R 24 128 y))) <=
    / 400000 + Rmax (Rabs (B2R 24 128 x)) (Rabs (B2R 24 128 y)) / 16000000.
Proof. exact lse_b32. Qed.
Print Assumptions C90_log_sum_exp.

(** Both functions give the same value when the arguments are exchanged. *)
Theorem C90_symmetric : forall (x y : binary32), is_finite 24 128 x = true -> is_finite 24 128 y = true ->
  B2R 24 128 x <> B2R 24 128 y \/ x = y ->
  (forall tbl log2, fast_lse tbl log2 x y = fast_lse tbl log2 y x) /\ forall expf logf, lse32 expf logf x y = lse32 expf logf y x.
Proof.
  intros x y Fx Fy H.
  assert (min32 x y = min32 y x /\ max32 x y = max32 y x) as [E1 E2].
  { unfold min32, max32. destruct (b32_ltb x y) eqn:A, (b32_ltb y x) eqn:B; try (split; reflexivity).
    - apply ltb_ok in A; try assumption. apply ltb_ok in B; try assumption. lra.
    - destruct H as [H | ->]; [| split; reflexivity]. exfalso. apply H. 
      apply Rle_antisym; apply Rnot_lt_le; intros L; apply ltb_ok in L; try assumption; congruence. }
  split; intros; [unfold fast_lse | unfold lse32]; rewrite E1, E2; reflexivity.
Qed.
Print Assumptions C90_symmetric.

(** An impossible alternative, score minus infinity: log_sum_exp gives the other score back, exactly. *)
Theorem C90_impossible : forall expf logf (x : binary32), good_expf expf -> good_logf logf -> is_finite 24 128 x = true -> Rabs (B2R 24 128 x) <= 500000000 ->
  is_finite 24 128 (lse32 expf logf x (B754_infinity 24 128 true)) = true /\ B2R 24 128 (lse32 expf logf x (B754_infinity 24 128 true)) = B2R 24 128 x.
Proof. exact lse_minf. Qed.
Print Assumptions C90_impossible.

(** Not so fast_log_sum_exp, whose exponential is undefined there; and two impossible alternatives give NaN, not
    minus infinity, with any libm that hands NaN on. *)
Theorem C90_impossible_refuted :
  (forall log2, fast_lse exp_table log2 (float_of_int 0) (B754_infinity 24 128 true) = UB) /\
  (forall expf logf, (forall z, is_nan 24 128 z = true -> is_nan 24 128 (expf z) = true /\ is_nan 24 128 (logf z) = true) ->
     is_nan 24 128 (lse32 expf logf (B754_infinity 24 128 true) (B754_infinity 24 128 true)) = true).
Proof.
  split.
  - intros log2. unfold fast_lse.
    assert (fast_exp exp_table (b32_minus mode_NE (min32 (float_of_int 0) (B754_infinity 24 128 true)) (max32 (float_of_int 0) (B754_infinity 24 128 true))) = UB) as -> by (vm_compute; reflexivity).
    reflexivity.
  - intros expf logf H.
    assert (is_nan 24 128 (b32_minus mode_NE (B754_infinity 24 128 true) (B754_infinity 24 128 true)) = true) as A by reflexivity.
    unfold lse32. change (max32 (B754_infinity 24 128 true) (B754_infinity 24 128 true)) with (B754_infinity 24 128 true).
    change (min32 (B754_infinity 24 128 true) (B754_infinity 24 128 true)) with (B754_infinity 24 128 true).
    destruct (H _ A) as [B _].
    assert (forall a b, is_nan 24 128 b = true -> is_nan 24 128 (b32_plus mode_NE a b) = true) as P.
    { intros a b N. destruct b; try discriminate N. destruct a; reflexivity. }
    apply P. apply H. apply P. exact B.
Qed.
Print Assumptions C90_impossible_refuted.

Section Vector.
  Variables (tbl : list Z) (lit : Z -> Z -> binary32) (lg lgam lgam_nu : binary32 -> binary32)
    (lfact : Z -> binary32) (sq : binary32 -> binary32) (pw : binary32 -> binary32 -> binary32).
  Let NB : Num binary32 := NumB tbl lit lg lgam lgam_nu lfact sq pw.

  (** log_sum_exp of a vector; [lg] is the logarithm called, with absolute error eps. *)
  Theorem C90_vector : forall eps (l : list binary32), faithful_table tbl -> 0 <= eps <= / 2 -> log_within eps lg ->
    l <> [] -> (Z.of_nat (length l) <= 1048576)%Z ->
    List.Forall (fun s => is_finite 24 128 s = true /\ Rabs (B2R 24 128 s) <= 500000000) l ->
    exists m r, In m l /\ (forall s, In s l -> B2R 24 128 s <= B2R 24 128 m) /\
      log_sum_exp (N := NB) l = Ok r /\ is_finite 24 128 r = true /\
      Rabs (B2R 24 128 r - log_sum (map (B2R 24 128) l)) <=
        eps + 3 / 100000 + INR (length l) / 6500000 + Rabs (B2R 24 128 m) / 16000000.
  Proof. intros eps l HT He Hl H1 H2 H3. exact (vec_lse tbl lit lg lgam lgam_nu lfact sq pw HT eps He Hl l (conj H1 (conj H2 H3))). Qed.

  (** score_from_scores_overwrite: the log-probability of the sample under the softmax of the scores. *)
  Theorem C90_score_from_scores : forall eps (l : list binary32) i s, faithful_table tbl -> 0 <= eps <= / 2 -> log_within eps lg ->
    (Z.of_nat (length l) <= 1048576)%Z ->
    List.Forall (fun s => is_finite 24 128 s = true /\ Rabs (B2R 24 128 s) <= 500000000) l -> nth_error l i = Some s ->
    exists m r, In m l /\ (forall s, In s l -> B2R 24 128 s <= B2R 24 128 m) /\
      score_from_scores_overwrite (N := NB) i l = Ok r /\ is_finite 24 128 r = true /\
      Rabs (B2R 24 128 r - (B2R 24 128 s - log_sum (map (B2R 24 128) l))) <=
        eps + 3 / 100000 + INR (length l) / 6500000 + (B2R 24 128 m - B2R 24 128 s) / 8000000.
  Proof.
    intros eps l i s HT He Hl H2 H3 Hs. assert (l <> []) as H1 by (intros ->; destruct i; discriminate Hs).
    exact (vec_score tbl lit lg lgam lgam_nu lfact sq pw HT eps He Hl l i s (conj H1 (conj H2 H3)) Hs).
  Qed.
End Vector.
Print Assumptions C90_vector.
Print Assumptions C90_score_from_scores.

(** The logarithm in the code is fast_log: eps = 7.4 * 10^-5.  Hypotheses met: the table of the library, a log2,
    expf and logf rounded to nearest, and the scores 0, -16 (18 times) and -1000. *)
Theorem C90_fast_log_within : forall log2, good_log2 log2 -> log_within (74 / 1000000) (fast_log32 log2).
Proof. exact log_within_fast. Qed.
Print Assumptions C90_fast_log_within.
Example C90_nonvacuous : faithful_table exp_table /\ good_log2 log2_witness /\ good_expf expf_witness /\ good_logf logf_witness /\
  log_within (74 / 1000000) (fast_log32 log2_witness).
Proof.
  split; [exact exp_table_faithful |]. split; [exact log2_witness_good |]. split; [exact expf_witness_good |]. split; [exact logf_witness_good |].
  exact (log_within_fast _ log2_witness_good).
Qed.
Example C90_scores : let l := [float_of_int 0; float_of_int (-16); float_of_int 3] in
  (Z.of_nat (length l) <= 1048576)%Z /\ List.Forall (fun s => is_finite 24 128 s = true /\ Rabs (B2R 24 128 s) <= 500000000) l /\
  nth_error l 1 = Some (float_of_int (-16)).
Proof.
  cbv zeta. split; [vm_compute; discriminate |]. split; [| reflexivity].
  destruct (int_ok 0 eq_refl) as [E0 F0]. destruct (int_ok (-16) eq_refl) as [E1 F1]. destruct (int_ok 3 eq_refl) as [E2 F2].
  apply List.Forall_forall. intros s [<- | [<- | [<- | []]]]; (split; [assumption |]); rewrite ?E0, ?E1, ?E2; apply Rabs_le; lra.
Qed.
