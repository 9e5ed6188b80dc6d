From Coq Require Import Reals Lra.
From Verif.model Require Import Base VectorMath Stirling.
From Verif.spec Require Import StirlingSpec.
From Verif.proof Require Import BaseProof LoopProof VectorProof.
Local Open Scope R_scope.

(** The recurrence. *)
Fixpoint st1 (n k : nat) : R :=
  match n, k with
  | O, O => 1
  | O, S _ => 0
  | S m, O => 0
  | S m, S j => INR m * st1 m (S j) + st1 m j
  end.

Lemma st1_nonneg n : forall k, 0 <= st1 n k.
Proof.
  induction n as [| n IH]; intros [| k]; cbn [st1]; try lra.
  pose proof (IH (S k)). pose proof (IH k). pose proof (pos_INR n). nra.
Qed.

Lemma st1_above n : forall k, (n < k)%nat -> st1 n k = 0.
Proof.
  induction n as [| n IH]; intros [| k] H; cbn [st1]; try lia; try reflexivity.
  rewrite !IH by lia. lra.
Qed.

Lemma st1_diag n : st1 n n = 1.
Proof.
  induction n as [| n IH]; [reflexivity |]. cbn [st1].
  rewrite st1_above by lia. lra.
Qed.

Lemma st1_pos n : forall k, (1 <= k <= n)%nat -> 0 < st1 n k.
Proof.
  induction n as [| n IH]; intros [| k] H; try lia. cbn [st1].
  destruct (Nat.eq_dec k n) as [-> | Hk].
  - rewrite st1_diag. pose proof (st1_nonneg n (S n)). pose proof (pos_INR n). nra.
  - assert (0 < st1 n (S k)) by (apply IH; lia). pose proof (st1_nonneg n k).
    assert (0 < INR n) by (apply lt_0_INR; lia). nra.
Qed.

Lemma st1_zero n : (0 < n)%nat -> st1 n 0 = 0.
Proof. destruct n; [lia | reflexivity]. Qed.

(** *** The recurrence gives the coefficients of the rising factorial *)
Definition psum (c : nat -> R) (x : R) (m : nat) : R :=
  poly (map c (seq 0 m)) x.

Lemma poly_app c d x : poly (c ++ d) x = poly c x + x ^ length c * poly d x.
Proof. induction c as [| a c IH]; cbn [app poly length pow]; [lra |]. rewrite IH. ring. Qed.

Lemma psum_S c x m : psum c x (S m) = psum c x m + c m * x ^ m.
Proof.
  unfold psum. rewrite seq_S, map_app, poly_app, map_length, seq_length. cbn. ring.
Qed.

Lemma psum_shift c x m : psum c x (S m) = c O + x * psum (fun k => c (S k)) x m.
Proof. unfold psum. cbn [seq map poly]. now rewrite <- seq_shift, map_map. Qed.

Lemma psum_ext c d x m : (forall k, (k < m)%nat -> c k = d k) -> psum c x m = psum d x m.
Proof. intros H. induction m as [| m IH]; [reflexivity |]. rewrite !psum_S, IH, H by auto with arith. reflexivity. Qed.

Lemma psum_lin a c d x m : psum (fun k => a * c k + d k) x m = a * psum c x m + psum d x m.
Proof. induction m as [| m IH]; [unfold psum; cbn; lra |]. rewrite !psum_S, IH. ring. Qed.

Lemma st1_rising x n : psum (st1 n) x (S n) = rising x n.
Proof.
  induction n as [| n IH]; [unfold psum; cbn; lra |].
  rewrite psum_shift.
  rewrite (psum_ext (fun k => st1 (S n) (S k)) (fun k => INR n * st1 n (S k) + st1 n k)) by reflexivity.
  rewrite psum_lin, IH. cbn [st1 rising].
  destruct n as [| n].
  - cbn. lra.
  - assert (x * psum (fun k => st1 (S n) (S k)) x (S (S n)) = rising x (S n)) as E.
    { rewrite <- IH, psum_S, st1_above by lia. rewrite (psum_shift (st1 (S n))). cbn [st1]. ring. }
    rewrite Rmult_plus_distr_l.
    replace (x * (INR (S n) * psum (fun k => st1 (S n) (S k)) x (S (S n))))
      with (INR (S n) * (x * psum (fun k => st1 (S n) (S k)) x (S (S n)))) by ring.
    rewrite E. ring.
Qed.

Lemma st1_row n : stirling_row n (map (st1 n) (seq 0 (S n))).
Proof. split; [now rewrite map_length, seq_length |]. intros x. apply st1_rising. Qed.

(** *** Logarithms *)
(** log c for c >= 0. *)
Definition elg (c : R) : ext := if Rlt_dec 0 c then Fin (ln c) else NInf.

Lemma elg_pos c : 0 < c -> elg c = Fin (ln c).
Proof. intros H. unfold elg. destruct (Rlt_dec 0 c); [reflexivity | lra]. Qed.
Lemma elg_0 : elg 0 = NInf.
Proof. unfold elg. destruct (Rlt_dec 0 0); [lra | reflexivity]. Qed.

Lemma elog_pos c : 0 < c -> elog (Fin c) = Fin (ln c).
Proof. intros H. unfold elog. destruct (Rlt_dec 0 c); [reflexivity | lra]. Qed.

Lemma eadd_elg m a : 0 < m -> 0 < a -> eadd (elog (Fin m)) (elg a) = elg (m * a).
Proof.
  intros Hm Ha. rewrite (elog_pos m Hm), (elg_pos a Ha), elg_pos by nra.
  cbn. now rewrite ln_mult.
Qed.

Lemma lse_elg a b : 0 < a -> 0 <= b -> log_sum_exp (elg a) (elg b) = elg (a + b).
Proof.
  intros Ha Hb. rewrite (elg_pos a Ha), (elg_pos (a + b)) by lra.
  destruct (Rle_lt_or_eq_dec 0 b Hb) as [Hp | <-].
  - rewrite (elg_pos b Hp). unfold log_sum_exp. cbn [elt].
    destruct (Rlt_dec (ln a) (ln b)) as [H | H]; cbn [eopp eadd eexp].
    + rewrite elog_pos by (pose proof (exp_pos (ln a + - ln b)); lra).
      cbn [eadd]. f_equal. rewrite exp_plus, exp_Ropp, !exp_ln by assumption.
      rewrite <- ln_mult; [| assumption |].
      * f_equal. field. lra.
      * assert (0 < / b) by (apply Rinv_0_lt_compat; assumption). nra.
    + rewrite elog_pos by (pose proof (exp_pos (ln b + - ln a)); lra).
      cbn [eadd]. f_equal. rewrite exp_plus, exp_Ropp, !exp_ln by assumption.
      rewrite <- ln_mult; [| assumption |].
      * f_equal. field. lra.
      * assert (0 < / a) by (apply Rinv_0_lt_compat; assumption). nra.
  - rewrite elg_0. unfold log_sum_exp. cbn [elt eopp eadd eexp].
    rewrite elog_pos by lra. cbn [eadd]. f_equal. rewrite !Rplus_0_r, ln_1. lra.
Qed.

Definition lrow (n : nat) : list ext := map (fun k => elg (st1 n k)) (seq 0 (S n)).

Lemma lrow_len n : length (lrow n) = S n.
Proof. unfold lrow. now rewrite map_length, seq_length. Qed.

Lemma lrow_nth n k : (k <= n)%nat -> nth_error (lrow n) k = Some (elg (st1 n k)).
Proof.
  intros H. unfold lrow. rewrite nth_error_map.
  assert (nth_error (seq 0 (S n)) k = Some k) as ->; [| reflexivity].
  rewrite (nth_error_nth' _ O) by (rewrite seq_length; lia). rewrite seq_nth by lia. reflexivity.
Qed.

Lemma lrow_get n k : (k <= n)%nat -> vget (lrow n) k = Ok (elg (st1 n k)).
Proof. intros H. unfold vget. now rewrite lrow_nth. Qed.

Definition rows (m : nat) : list (list ext) := map lrow (seq 0 m).

Lemma rows_len m : length (rows m) = m.
Proof. unfold rows. now rewrite map_length, seq_length. Qed.

Lemma rows_get m n : (n < m)%nat -> vget (rows m) n = Ok (lrow n).
Proof.
  intros H. unfold vget, rows. rewrite nth_error_map.
  assert (nth_error (seq 0 m) n = Some n) as ->; [| reflexivity].
  rewrite (nth_error_nth' _ O) by (rewrite seq_length; lia). rewrite seq_nth by lia. reflexivity.
Qed.

Lemma rows_S m : rows (S m) = rows m ++ [lrow m].
Proof. unfold rows. now rewrite seq_S, map_app. Qed.

Lemma vset_ok {A} (l : list A) i a : (i < length l)%nat -> vset l i a = Ok (upd l i a).
Proof. intros H. unfold vset. destruct (Nat.ltb_spec i (length l)); [reflexivity | lia]. Qed.

Lemma cache_add_ok m : cache_add (rows m) = Ok (rows (S m)).
Proof.
  rewrite rows_S. unfold cache_add. rewrite rows_len.
  rewrite vset_ok by (rewrite repeat_length; lia). cbn [obind].
  rewrite vset_ok by (rewrite length_upd, repeat_length; lia). cbn [obind].
  destruct (Nat.ltb_spec 1 m) as [H | H].
  - rewrite rows_get by lia. cbn [obind].
    edestruct (vfor_upd (fun k row =>
        let* a := vget (lrow (m - 1)) k in
        let* b := vget (lrow (m - 1)) (k - 1) in
        vset row k (log_sum_exp (eadd (elog (Fin (INR (m - 1)))) a) b))
      (fun k _ => elg (st1 m k)) (m - 1) 1
      (upd (upd (repeat (Fin 0) (m + 1)) 0 NInf) m (Fin 0))) as (r & Er & Lr & Nr).
    + rewrite !length_upd, repeat_length. lia.
    + intros i l' x Hi HL _ _. rewrite !length_upd, repeat_length in HL.
      rewrite !lrow_get by lia. cbn [obind]. rewrite vset_ok by lia. do 2 f_equal.
      destruct m as [| m]; [lia |]. replace (S m - 1)%nat with m by lia.
      destruct i as [| i]; [lia |]. replace (S i - 1)%nat with i by lia.
      cbn [st1]. rewrite eadd_elg.
      * apply lse_elg; [| apply st1_nonneg].
        apply Rmult_lt_0_compat; [apply lt_0_INR; lia | apply st1_pos; lia].
      * apply lt_0_INR. lia.
      * apply st1_pos. lia.
    + rewrite Er. cbn [obind]. do 3 f_equal. destruct Nr as [Nin Nout].
      rewrite !length_upd, repeat_length in Lr.
      assert (forall i, (i <= m)%nat -> exists x, nth_error
        (upd (upd (repeat (Fin 0) (m + 1)) 0 NInf) m (Fin 0)) i = Some x) as Hsome.
      { intros i Hi. destruct (nth_error _ i) as [x |] eqn:E; [now exists x |].
        apply nth_error_None in E. rewrite !length_upd, repeat_length in E. lia. }
      apply nth_error_ext. intros i.
      destruct (Nat.le_gt_cases (S m) i) as [Hi | Hi].
      { rewrite (proj2 (nth_error_None r i)) by lia.
        symmetry. apply nth_error_None. rewrite lrow_len. lia. }
      rewrite lrow_nth by lia.
      destruct (Nat.eq_dec i 0) as [-> | I0]; [| destruct (Nat.eq_dec i m) as [-> | I1]].
      * rewrite Nout, st1_zero, elg_0 by lia. rewrite nth_error_upd_ne by lia.
        apply nth_error_upd_eq. rewrite repeat_length. lia.
      * rewrite Nout by lia. rewrite nth_error_upd_eq by (rewrite length_upd, repeat_length; lia).
        rewrite st1_diag, elg_pos, ln_1 by lra. reflexivity.
      * destruct (Hsome i ltac:(lia)) as (x & Ex). rewrite (Nin i x) by (lia || exact Ex). reflexivity.
  - destruct m as [| [| m]]; [| | lia]; unfold lrow; cbn [seq map repeat upd Nat.add].
    + rewrite st1_diag, elg_pos, ln_1 by lra. reflexivity.
    + rewrite st1_diag, (st1_zero 1), elg_0, (elg_pos 1), ln_1 by (lra || lia). reflexivity.
Qed.

Lemma cache_fill_ok n : forall fuel m, (n + 1 - m <= fuel)%nat ->
  exists m', cache_fill fuel n (rows m) = Ok (rows m') /\ (n < m')%nat /\ (m <= m')%nat.
Proof.
  induction fuel as [| f IH]; intros m H; cbn [cache_fill]; rewrite rows_len.
  - destruct (Nat.leb_spec m n); [lia |]. exists m. split; [reflexivity | lia].
  - destruct (Nat.leb_spec m n).
    + rewrite cache_add_ok. cbn [obind]. destruct (IH (S m)) as (m' & E & A & B); [lia |].
      exists m'. split; [exact E | lia].
    + exists m. split; [reflexivity | lia].
Qed.

Lemma resize_len buf n : length (resize buf n) = n.
Proof. unfold resize. rewrite app_length, firstn_length, repeat_length. lia. Qed.

Lemma row_exact_ok n m buf : length buf = S n ->
  exists m', row_exact n (rows m) buf = Ok (rows m', lrow n).
Proof.
  intros HB. unfold row_exact. rewrite rows_len.
  destruct (cache_fill_ok n (n + 1 - m) m (le_n _)) as (m' & E & A & _).
  rewrite E. cbn [obind]. rewrite rows_get by assumption. cbn [obind].
  unfold memcpy. rewrite lrow_len, HB, Nat.leb_refl. cbn [obind].
  rewrite skipn_all2 by lia. rewrite app_nil_r. now exists m'.
Qed.

Lemma exact_calls_ok calls : forall m, exists m',
  exact_calls calls (rows m) = Ok (rows m', map (fun c => lrow (fst c)) calls).
Proof.
  induction calls as [| [n buf] calls IH]; intros m; cbn [exact_calls map fst]; [now exists m |].
  destruct (row_exact_ok n m (resize buf (n + 1))) as (m1 & E1); [rewrite resize_len; lia |].
  rewrite E1. cbn [obind]. destruct (IH m1) as (m2 & E2). rewrite E2. cbn [obind]. now exists m2.
Qed.

Lemma row_approx_ok inner n buf : (1 <= n)%nat -> length buf = S n ->
  exists row, row_approx inner n buf = Ok row /\ length row = S n /\
    nth_error row 0 = Some NInf /\ nth_error row n = Some (Fin 0) /\
    (forall k, (1 <= k < n)%nat -> nth_error row k = Some (inner n k)).
Proof.
  intros Hn HB. unfold row_approx.
  rewrite vset_ok by lia. cbn [obind]. rewrite vset_ok by (rewrite length_upd; lia). cbn [obind].
  destruct (vfor_upd (fun k b => vset b k (inner n k)) (fun k _ => inner n k) (n - 1) 1
    (upd (upd buf 0 NInf) n (Fin 0))) as (r & Er & Lr & Nin & Nout).
  - rewrite !length_upd. lia.
  - intros i l' x Hi HL _ _. rewrite !length_upd in HL. apply vset_ok. lia.
  - rewrite !length_upd in Lr. exists r. split; [exact Er |]. split; [lia |]. repeat split.
    + rewrite Nout by lia. rewrite nth_error_upd_ne by lia. apply nth_error_upd_eq. lia.
    + rewrite Nout by lia. apply nth_error_upd_eq. rewrite length_upd. lia.
    + intros k Hk. destruct (nth_error (upd (upd buf 0 NInf) n (Fin 0)) k) as [x |] eqn:E.
      * apply (Nin k x); [lia | exact E].
      * apply nth_error_None in E. rewrite !length_upd in E. lia.
Qed.

(** What one returned row must be. *)
Definition row_for (inner : nat -> nat -> ext) (n : nat) (row : list ext) : Prop :=
  if (n <? 32)%nat then row = lrow n
  else length row = S n /\ nth_error row 0 = Some NInf /\ nth_error row n = Some (Fin 0) /\
       (forall k, (1 <= k < n)%nat -> nth_error row k = Some (inner n k)).

Lemma stirling_calls_ok inner calls : forall m, exists m' out,
  stirling_calls inner calls (rows m) = Ok (rows m', out) /\
  Forall2 (fun c row => row_for inner (fst c) row) calls out.
Proof.
  induction calls as [| [n buf] calls IH]; intros m; cbn [stirling_calls].
  - exists m, []. split; [reflexivity | constructor].
  - unfold stirling1_row. destruct (Nat.ltb_spec n 32) as [H | H].
    + destruct (row_exact_ok n m (resize buf (n + 1))) as (m1 & E1); [rewrite resize_len; lia |].
      rewrite E1. cbn [obind]. destruct (IH m1) as (m2 & out & E2 & F). rewrite E2. cbn [obind].
      exists m2, (lrow n :: out). split; [reflexivity |]. constructor; [| exact F].
      unfold row_for. cbn [fst]. destruct (Nat.ltb_spec n 32); [reflexivity | lia].
    + destruct (row_approx_ok inner n (resize buf (n + 1))) as (row & E1 & R); [lia | rewrite resize_len; lia |].
      rewrite E1. cbn [obind]. destruct (IH m) as (m2 & out & E2 & F). rewrite E2. cbn [obind].
      exists m2, (row :: out). split; [reflexivity |]. constructor; [| exact F].
      unfold row_for. cbn [fst]. destruct (Nat.ltb_spec n 32); [lia | exact R].
Qed.
