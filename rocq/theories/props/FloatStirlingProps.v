(** C91: rows of logarithms of Stirling numbers in single precision. *)
From Coq Require Import Reals Lra Lia ZArith List.
From Flocq Require Import Core BinarySingleNaN Binary Bits.
From Verif.model Require Import Base FastExp ExpTable FloatNum FastLog Special FastLgamma FloatLse FloatStirling.
From Verif.spec Require Import ExpSpec LogSpec LseSpec StirlingSpec FloatStirlingSpec.
From Verif.proof Require Import FastExpProof ExpTableProof FastLogProof FloatScoresProof FloatOfReal StirlingProof FloatStirlingProof StirlingBounds FloatStirlingApprox.
From Verif.props Require Import FastLgammaProps.
Import ListNotations.
Local Open Scope R_scope.

(** Every history of calls of the public function, from an empty cache, with any vectors passed in: no call fails.
    For n < 32 every entry is within n / 50000 of log s(n,k) and is minus infinity where s(n,k) = 0; from 32 to
    2^20 the row is that of [near_row]. *)
Theorem C91_rows : forall expf logf tbl log2 daz libm calls,
  good_expf expf -> good_logf logf -> faithful_table tbl -> good_log2 log2 ->
  List.Forall (fun call => (Z.of_nat (fst call) <= 1048576)%Z) calls ->
  exists cache rows, stirling_calls32 expf logf tbl log2 daz libm calls [] = Ok (cache, rows) /\
    List.Forall2 (fun call row =>
      ((fst call < 32)%nat -> log_row (INR (fst call) / 50000) (fst call) row) /\
      ((32 <= fst call)%nat -> exists c, stirling_row (fst call) c /\ near_row (fst call) row c)) calls rows.
Proof.
  intros expf logf tbl log2 daz libm calls HE HL HT HG H.
  assert (good_cache []) as G by (split; [cbn; lia | intros [| n] row E; discriminate E]).
  exact (calls_good expf logf tbl log2 daz libm HE HL HT HG calls H [] G).
Qed.
Print Assumptions C91_rows.

(** Hypotheses met, by rows 31 and 32 asked for twice. *)
Example C91_nonvacuous : good_expf expf_witness /\ good_logf logf_witness /\ faithful_table exp_table /\ good_log2 log2_witness /\
  List.Forall (fun call : nat * list binary32 => (Z.of_nat (fst call) <= 1048576)%Z) [(31, []); (32, [float_of_int 7]); (31, []); (32, [])]%nat.
Proof.
  split; [exact expf_witness_good |]. split; [exact logf_witness_good |]. split; [exact exp_table_faithful |]. split; [exact log2_witness_good |].
  repeat constructor; cbn [fst]; lia.
Qed.

(** Bounds on the numbers themselves, which place the approximations: the second is never below, the first is below by
    at most 0.0042 (k - 1) and above by at most (k - 1) ln (gamma + ln (n - 1)). *)
Theorem C91_approximations : forall n c k s, (32 <= n)%nat -> (1 <= k < n)%nat -> stirling_row n c -> nth_error c k = Some s ->
  ln s <= approx2 n k /\ ln s - 42 / 10000 * INR (k - 1) <= approx1 euler n k <= ln s + INR (k - 1) * ln (euler + ln (INR (n - 1))).
Proof.
  intros n c k s Hn Hk HC Hs.
  assert (s = st1 n k) as -> by exact (row_unique n c k s HC ltac:(lia) Hs).
  destruct gam_val as [G _]. split; [apply approx2_ge; lia |].
  pose proof (approx1_ge euler n k ltac:(lra) Hn Hk). pose proof (approx1_le euler n k Hn Hk). lra.
Qed.
Print Assumptions C91_approximations.

(** The source says both are overestimates; the first is not: at n = 32, k = 2 it is below. *)
Theorem C91_overestimate_refuted : exists c s, stirling_row 32 c /\ nth_error c 2 = Some s /\ approx1 euler 32 2 < ln s.
Proof.
  exists (map (st1 32) (seq 0 33)), (st1 32 2). split; [apply st1_row |]. split; [reflexivity |]. destruct gam_val as [G _]. apply approx1_two; lra.
Qed.
Print Assumptions C91_overestimate_refuted.

(** No absolute accuracy from 32 on: already the entry for k = 1, the logarithm of (n-1)!, is too low by n / 250 or
    more in every row. *)
Theorem C91_absolute_refuted : forall expf logf tbl log2 daz libm n cache result,
  good_logf logf -> faithful_table tbl -> good_log2 log2 -> (32 <= Z.of_nat n <= 1048576)%Z ->
  exists row v, stirling1_row32 expf logf tbl log2 daz libm n cache result = Ok (cache, row) /\ nth_error row 1 = Some v /\ is_finite 24 128 v = true /\ B2R 24 128 v <= ln (INR (fact (n - 1))) - INR n / 250.
Proof.
  intros expf logf tbl log2 daz libm n cache result HL HT HG Hn. unfold stirling1_row32. destruct (Nat.ltb_spec n 32); [lia |].
  destruct (row_approx_good logf tbl log2 daz libm HL HT HG n (resize32 result (n + 1)) Hn) as (row & E & _ & _ & _ & R); [rewrite resize32_len; lia |].
  rewrite E. cbn [obind]. destruct (R 1%nat (st1 n 1) ltac:(lia)) as (v & Ev & Fv & Av & _).
  { rewrite nth_error_map, (nth_error_nth' (seq 0 (S n)) O) by (rewrite seq_length; lia). rewrite seq_nth by lia. reflexivity. }
  exists row, v. split; [reflexivity |]. split; [exact Ev |]. split; [exact Fv |].
  pose proof (soft_first euler n ltac:(lia)) as S. apply Rabs_le_inv in Av. pose proof (pos_INR n). lra.
Qed.
Print Assumptions C91_absolute_refuted.
(** (n-1)! is s(n,1), as 6 in the row 0, 6, 11, 6, 1. *)
Example C91_first : forall n, (1 <= n)%nat -> exists c, stirling_row n c /\ nth_error c 1 = Some (INR (fact (n - 1))).
Proof.
  intros n Hn. exists (map (st1 n) (seq 0 (S n))). split; [apply st1_row |].
  rewrite nth_error_map, (nth_error_nth' (seq 0 (S n)) O) by (rewrite seq_length; lia). rewrite seq_nth by lia. cbn [option_map Nat.add]. f_equal.
  destruct n as [| n]; [lia |]. replace (S n - 1)%nat with n by lia. clear Hn. induction n as [| n IH]; [cbn; lra |].
  change (st1 (S (S n)) 1) with (INR (S n) * st1 (S n) 1 + st1 (S n) 0). rewrite IH, st1_zero, fact_SR by lia. lra.
Qed.

(** fast_log_factorial, table and formula together. *)
Theorem C91_log_factorial : forall daz libm n, (0 <= n <= 4294967166)%Z -> (daz = true -> (n <= 1073741790)%Z) ->
  exists r, fast_log_factorial32 daz libm n = Ok r /\ is_finite 24 128 r = true /\
    Rabs (B2R 24 128 r - ln (INR (fact (Z.to_nat n)))) <= 45 / 10000000 * ln (INR (fact (Z.to_nat n))) + / 1000000000.
Proof.
  intros daz libm n Hn Hd. unfold fast_log_factorial32. pose proof (logfact_nonneg (Z.to_nat n)) as P. unfold logfact in P. destruct (Z.ltb_spec n 64) as [L | L].
  - destruct (factorial_table n ltac:(lia)) as (r & E & F & B). unfold logfact in B. exists r. split; [exact E |]. split; [exact F |]. lra.
  - destruct (C86_log_factorial_partial daz libm n ltac:(lia) Hd) as (r & E & F & B). exists r. split; [exact E |]. split; [exact F |]. lra.
Qed.
Print Assumptions C91_log_factorial.
Example C91_log_factorial_5 : fast_log_factorial32 false (fun x => x) 5 = Ok (b32_of_bits 1083781922).
Proof. vm_compute. reflexivity. Qed.
