(** The exact rows of get_log_stirling1_row in single precision, and the table of fast_log_factorial. *)
From Coq Require Import Reals Lra ZArith Lia List.
From Flocq Require Import Core BinarySingleNaN Binary Bits.
From Verif.model Require Import Base FastExp FloatNum FastLog VectorMath SpecialTables Special FastLgamma FloatLse FloatStirling.
From Verif.spec Require Import ExpSpec LogSpec LseSpec StirlingSpec FloatStirlingSpec.
From Verif.proof Require Import LnBounds BaseProof LoopProof SpecialProof FastLgammaProof FastLgammaMore FastExpProof FloatScoresProof FloatRel FloatLseProof VectorProof StirlingProof.
Import ListNotations.
Local Open Scope R_scope.

Lemma st1_one n : forall k, (1 <= k <= n)%nat -> 1 <= st1 n k.
Proof.
  induction n as [| n IH]; intros [| k] H; try lia. cbn [st1]. destruct (Nat.eq_dec k n) as [-> | Hk].
  - rewrite st1_diag. pose proof (st1_nonneg n (S n)). pose proof (pos_INR n). nra.
  - assert (1 <= st1 n (S k)) by (apply IH; lia). pose proof (st1_nonneg n k).
    assert (1 <= INR n) by (apply (le_INR 1); lia). nra.
Qed.
Lemma st1_le_pow n : forall k, (n <= 32)%nat -> st1 n k <= 32 ^ n.
Proof.
  induction n as [| n IH]; intros [| k] H; cbn [st1 pow]; try lra.
  - pose proof (pow_lt 32 n ltac:(lra)). lra.
  - pose proof (IH (S k) ltac:(lia)). pose proof (IH k ltac:(lia)). assert (INR n <= 31) by (replace 31 with (INR 31) by (rewrite INR_IZR_INZ; reflexivity); apply le_INR; lia).
    pose proof (pos_INR n). pose proof (st1_nonneg n (S k)). pose proof (pow_lt 32 n ltac:(lra)). nra.
Qed.
Lemma ln_st1 n k : (n <= 31)%nat -> (1 <= k <= n)%nat -> 0 <= ln (st1 n k) <= 108.
Proof.
  intros Hn Hk. pose proof (st1_one n k Hk) as A. pose proof (st1_le_pow n k ltac:(lia)) as B. split; [rewrite <- ln_1; apply ln_le'; lra |].
  apply Rle_trans with (ln (32 ^ n)); [apply ln_le'; lra |]. rewrite ln_pow by lra.
  assert (ln 32 <= 347 / 100) as C. { replace 32 with (2 ^ 5) by lra. rewrite ln_pow by lra. pose proof ln2_hi. change (INR 5) with (1 + 1 + 1 + 1 + 1). lra. }
  assert (INR n <= 31) by (replace 31 with (INR 31) by (rewrite INR_IZR_INZ; reflexivity); apply le_INR; lia).
  pose proof (pos_INR n). assert (0 <= ln 32) by (rewrite <- ln_1; apply ln_le'; lra). nra.
Qed.

Section Exact.
  Variables (expf logf : binary32 -> binary32).
  Hypothesis HE : good_expf expf.
  Hypothesis HL : good_logf logf.

  (** Row n, with error n / 50000. *)
  Definition good_row (n : nat) (row : list binary32) : Prop :=
    length row = S n /\ forall k v, nth_error row k = Some v -> log_near (INR n / 50000) v (st1 n k).
  Definition good_cache (cache : list (list binary32)) : Prop :=
    (length cache <= 32)%nat /\ forall n row, nth_error cache n = Some row -> good_row n row.

  (** One entry: logf(n) + a and b, from row n to row n + 1. *)
  Lemma entry n k a b : (1 <= n <= 30)%nat -> (k < n)%nat -> log_near (INR n / 50000) a (st1 n (S k)) -> log_near (INR n / 50000) b (st1 n k) ->
    log_near (INR (S n) / 50000) (lse32 expf logf (b32_plus mode_NE (logf (float_of_int (Z.of_nat n))) a) b) (st1 (S n) (S k)).
  Proof.
    intros Hn Hk [[Z _] | (_ & Fa & Ha)] Hb. { pose proof (st1_pos n (S k) ltac:(lia)). lra. }
    right. assert (1 <= INR n <= 30) as Rn. { split; [apply (le_INR 1); lia |]. replace 30 with (INR 30) by (rewrite INR_IZR_INZ; reflexivity). apply le_INR; lia. }
    pose proof (st1_pos n (S k) ltac:(lia)) as P1. pose proof (st1_pos (S n) (S k) ltac:(lia)) as P. split; [exact P |].
    fold (b2r a) in Ha. rewrite S_INR. replace ((INR n + 1) / 50000) with (INR n / 50000 + / 50000) by field. set (e := INR n / 50000) in *. assert (0 <= e <= / 1000) as He by (unfold e; lra).
    pose proof (ln_st1 n (S k) ltac:(lia) ltac:(lia)) as L1. pose proof (Rabs_le_inv _ _ Ha) as Ha'.
    destruct (int_ok (Z.of_nat n)) as [Vn Fn]; [lia |]. rewrite <- INR_IZR_INZ in Vn.
    destruct (HL (float_of_int (Z.of_nat n)) Fn) as [Fl Bl]. { fold (b2r (float_of_int (Z.of_nat n))). lra. }
    fold (b2r (float_of_int (Z.of_nat n))) in Bl. rewrite Vn in Bl. set (l := logf (float_of_int (Z.of_nat n))) in *. fold (b2r l) in Bl. clearbody l.
    assert (0 <= ln (INR n) <= 347 / 100) as Ln.
    { split; [rewrite <- ln_1; apply ln_le'; lra |]. apply Rle_trans with (ln 32); [apply ln_le'; lra |]. replace 32 with (2 ^ 5) by lra. rewrite ln_pow by lra. pose proof ln2_hi. change (INR 5) with (1 + 1 + 1 + 1 + 1). lra. }
    apply Rabs_le_inv in Bl. pose proof bpow127 as HB.
    destruct (plus_ok l a Fl Fa) as [Ex Fx]. { apply Rabs_le. lra. }
    pose proof (rnd_err (b2r l + b2r a)) as R. rewrite <- Ex in R. set (x := b32_plus mode_NE l a) in *. clearbody x. clear Ex.
    assert (eta32 <= / 1000000000) as Ht by (pose proof eta32_pos; lra). unfold u24 in R.
    assert (Rabs (b2r l + b2r a) <= 112) as R2 by (apply Rabs_le; lra).
    assert (Rabs (b2r x - (b2r l + b2r a)) <= 68 / 10000000) as R3 by lra. apply Rabs_le_inv in R3.
    assert (Rabs (b2r x - ln (INR n * st1 n (S k))) <= e + 73 / 10000000) as Hx.
    { rewrite ln_mult by lra. apply Rabs_le. lra. }
    assert (Rabs (b2r x) <= 112) as Bx by (apply Rabs_le; lra).
    assert (0 < INR n * st1 n (S k)) as Pm by (apply Rmult_lt_0_compat; lra).
    destruct Hb as [[Z ->] | (P2 & Fb & Hb)].
    - destruct (lse_minf expf logf x HE HL Fx ltac:(lra)) as [Fr Er]. split; [exact Fr |]. fold (b2r (lse32 expf logf x (B754_infinity 24 128 true))).
      rewrite Er. cbn [st1]. rewrite Z, Rplus_0_r. lra.
    - fold (b2r b) in Hb. assert (1 <= k)%nat as K1 by (destruct k; [destruct n; [lia | cbn in P2; lra] | lia]).
      pose proof (ln_st1 n k ltac:(lia) ltac:(lia)) as L2. pose proof (Rabs_le_inv _ _ Hb) as Hb'.
      assert (Rabs (b2r b) <= 112) as Bb by (apply Rabs_le; lra).
      destruct (lse_b32 expf logf x b HE HL Fx Fb ltac:(lra) ltac:(lra)) as [Fr Er]. split; [exact Fr |]. fold (b2r (lse32 expf logf x b)).
      assert (Rmax (Rabs (b2r x)) (Rabs (b2r b)) <= 112) as Bm by (apply Rmax_lub; lra).
      assert (Rabs (ln (exp (b2r x) + exp (b2r b)) - ln (INR n * st1 n (S k) + st1 n k)) <= e + 73 / 10000000) as D
        by (apply ln_plus; try apply exp_pos; try lra; rewrite ln_exp; lra).
      cbn [st1]. set (r := b2r (lse32 expf logf x b)) in *. clearbody r.
      apply Rabs_le_inv in D. apply Rabs_le_inv in Er. apply Rabs_le. lra.
  Qed.

  Lemma cache_add_good cache : good_cache cache -> (length cache < 32)%nat -> exists cache',
    cache_add32 expf logf cache = Ok cache' /\ good_cache cache' /\ length cache' = S (length cache).
  Proof.
    intros [HC1 HC2] Hlen. unfold cache_add32. set (m := length cache) in *.
    rewrite vset_ok by (rewrite repeat_length; lia). cbn [obind]. rewrite vset_ok by (rewrite length_upd, repeat_length; lia). cbn [obind].
    set (row0 := upd (upd (repeat b_zero (m + 1)) 0 b_minf) m b_zero).
    assert (length row0 = S m) as L0 by (unfold row0; rewrite !length_upd, repeat_length; lia).
    assert (forall row, good_row m row -> good_cache (cache ++ [row]) /\ length (cache ++ [row]) = S m) as G.
    { intros row Hr. split; [| rewrite app_length; cbn; unfold m; lia]. split; [rewrite app_length; cbn; lia |]. intros n r Hn.
      destruct (Nat.lt_ge_cases n m) as [L | L]; [rewrite nth_error_app1 in Hn by exact L; now apply HC2 |].
      rewrite nth_error_app2 in Hn by exact L. fold m in Hn. assert (n = m) as ->; [| rewrite Nat.sub_diag in Hn; now injection Hn as <-].
      assert (n - m < 1)%nat; [| lia]. apply (nth_error_Some [row] (n - m)). congruence. }
    assert (forall j row, length row = S m -> nth_error row 0 = Some b_minf -> nth_error row m = Some b_zero -> (1 <= m)%nat ->
      (j = 0 \/ j = m)%nat -> forall v, nth_error row j = Some v -> log_near (INR m / 50000) v (st1 m j)) as Ends.
    { intros j row Hl H0 Hm Pm [-> | ->] v Hv.
      - rewrite H0 in Hv. injection Hv as <-. left. split; [apply st1_zero; lia | reflexivity].
      - rewrite Hm in Hv. injection Hv as <-. right. rewrite st1_diag, ln_1. destruct (int_ok 0 eq_refl) as [E F].
        split; [lra |]. split; [exact F |]. fold (b2r b_zero). change (b2r b_zero) with (b2r (float_of_int 0)). rewrite E, Rminus_0_r, Rabs_R0. pose proof (pos_INR m). lra. }
    assert (nth_error row0 m = Some b_zero) as Rm by (unfold row0; apply nth_error_upd_eq; rewrite length_upd, repeat_length; lia).
    assert ((1 <= m)%nat -> nth_error row0 0 = Some b_minf) as R0.
    { intros Pm. unfold row0. rewrite nth_error_upd_ne by lia. apply nth_error_upd_eq. rewrite repeat_length. lia. }
    destruct (Nat.ltb_spec 1 m) as [H | H].
    - destruct (nth_error cache (m - 1)) as [prev |] eqn:Ep; [| apply nth_error_None in Ep; fold m in Ep; lia].
      rewrite (vget_nth _ _ _ Ep). cbn [obind]. destruct (HC2 _ _ Ep) as [Lp Hp].
      set (f := fun (k : nat) (_ : binary32) => lse32 expf logf (b32_plus mode_NE (logf (float_of_int (Z.of_nat (m - 1)))) (nth k prev b_zero)) (nth (k - 1) prev b_zero)).
      assert (forall k, (k < m)%nat -> nth_error prev k = Some (nth k prev b_zero)) as Np by (intros k Hk; apply nth_error_nth'; lia).
      destruct (vfor_upd (fun k row => let* a := vget prev k in let* b := vget prev (k - 1) in
          vset row k (lse32 expf logf (b32_plus mode_NE (logf (float_of_int (Z.of_nat (m - 1)))) a) b)) f (m - 1) 1 row0) as (r & Er & Lr & Nin & Nout).
      + lia.
      + intros i l' x Hi HL' _ _. rewrite (vget_nth _ _ _ (Np i ltac:(lia))). cbn [obind]. rewrite (vget_nth _ _ _ (Np (i - 1)%nat ltac:(lia))). cbn [obind]. apply vset_ok. lia.
      + rewrite Er. cbn [obind]. exists (cache ++ [r]). split; [reflexivity |]. apply G. split; [lia |]. intros k v Hv.
        assert (nth_error r 0 = Some b_minf) as Z0 by (rewrite Nout by lia; apply R0; lia).
        assert (nth_error r m = Some b_zero) as Zm by (rewrite Nout by lia; exact Rm).
        assert (k < S m)%nat as Hk by (rewrite <- L0, <- Lr; apply nth_error_Some; congruence).
        destruct (Nat.eq_dec k 0) as [K0 | K0]; [apply (Ends k r); (lia || assumption || auto) |].
        destruct (Nat.eq_dec k m) as [K1 | K1]; [apply (Ends k r); (lia || assumption || auto) |].
        destruct (nth_error row0 k) as [x |] eqn:Ex; [| apply nth_error_None in Ex; lia].
        rewrite (Nin k x) in Hv by (lia || exact Ex). injection Hv as <-. unfold f.
        pose proof (Hp _ _ (Np k ltac:(lia))) as Ga. pose proof (Hp _ _ (Np (k - 1)%nat ltac:(lia))) as Gb.
        pose proof (entry (m - 1) (k - 1) (nth k prev b_zero) (nth (k - 1) prev b_zero) ltac:(lia) ltac:(lia)) as Q.
        replace (S (k - 1)) with k in Q by lia. replace (S (m - 1)) with m in Q by lia. exact (Q Ga Gb).
    - exists (cache ++ [row0]). split; [reflexivity |]. apply G. split; [exact L0 |]. intros k v Hv.
      assert (k < S m)%nat as Hk by (rewrite <- L0; apply nth_error_Some; congruence).
      destruct (Nat.eq_dec m 0) as [Z | Z].
      + rewrite Z in *. assert (k = 0)%nat as -> by lia. rewrite Rm in Hv. injection Hv as <-. right. cbn [st1 INR]. rewrite ln_1. destruct (int_ok 0 eq_refl) as [E F].
        split; [lra |]. split; [exact F |]. fold (b2r b_zero). change (b2r b_zero) with (b2r (float_of_int 0)). rewrite E, Rminus_0_r, Rabs_R0. lra.
      + apply (Ends k row0); (lia || assumption || (apply R0; lia) || auto).
  Qed.

  Lemma cache_fill_good n : (n < 32)%nat -> forall fuel cache, good_cache cache -> (n + 1 - length cache <= fuel)%nat -> exists cache',
    cache_fill32 expf logf fuel n cache = Ok cache' /\ good_cache cache' /\ (n < length cache')%nat.
  Proof.
    intros Hn. induction fuel as [| f IH]; intros cache HC H; cbn [cache_fill32].
    - destruct (Nat.leb_spec (length cache) n); [lia |]. exists cache. split; [reflexivity | split; [exact HC | lia]].
    - destruct (Nat.leb_spec (length cache) n).
      + destruct (cache_add_good cache HC ltac:(lia)) as (c & E & G & L). rewrite E. cbn [obind]. apply IH; [exact G | lia].
      + exists cache. split; [reflexivity | split; [exact HC | lia]].
  Qed.

  Lemma resize32_len buf n : length (resize32 buf n) = n.
  Proof. unfold resize32. rewrite app_length, firstn_length, repeat_length. lia. Qed.

  Lemma row_exact_good n cache buf : (n < 32)%nat -> good_cache cache -> length buf = S n -> exists cache' row,
    row_exact32 expf logf n cache buf = Ok (cache', row) /\ good_cache cache' /\ good_row n row.
  Proof.
    intros Hn HC HB. unfold row_exact32. destruct (cache_fill_good n Hn _ cache HC (le_n _)) as (c & E & G & L). rewrite E. cbn [obind].
    destruct (nth_error c n) as [row |] eqn:Er; [| apply nth_error_None in Er; lia]. rewrite (vget_nth _ _ _ Er). cbn [obind].
    pose proof (proj2 G _ _ Er) as GR. unfold memcpy32. rewrite (proj1 GR), HB, Nat.leb_refl. cbn [obind]. rewrite skipn_all2 by lia. rewrite app_nil_r.
    exists c, row. auto.
  Qed.

  Lemma good_row_log n row : good_row n row -> log_row (INR n / 50000) n row.
  Proof.
    intros [HL' H]. exists (map (st1 n) (seq 0 (S n))). split; [apply st1_row |].
    assert (forall m j r, length r = m -> (forall k v, nth_error r k = Some v -> log_near (INR n / 50000) v (st1 n (j + k))) ->
      List.Forall2 (log_near (INR n / 50000)) r (map (st1 n) (seq j m))) as Q.
    { induction m as [| m IH]; intros j [| v r] Hl Hr; try discriminate Hl; [constructor |]. cbn [seq map]. constructor.
      - specialize (Hr 0%nat v eq_refl). rewrite Nat.add_0_r in Hr. exact Hr.
      - apply IH; [now injection Hl |]. intros k w Hw. replace (S j + k)%nat with (j + S k)%nat by lia. now apply Hr. }
    apply Q; [exact HL' | exact H].
  Qed.
End Exact.

(** *** The table of logarithms of factorials *)
Definition fact_rounded (l : Z * Z) (b : Z) : bool := if (fst l =? 0)%Z then (b =? 0)%Z else rounded l b.
Lemma fact_rounded_all : all2 fact_rounded log_factorial_table log_factorial_bits = true.
Proof. vm_compute. reflexivity. Qed.

Definition logfact (n : nat) : R := ln (INR (fact n)).
Lemma logfact_nonneg n : 0 <= logfact n.
Proof. unfold logfact. rewrite <- ln_1. apply ln_le'; [lra |]. apply (le_INR 1). apply lt_O_fact. Qed.

Lemma factorial_table n : (0 <= n < 64)%Z -> exists r, FastLgamma.coeff log_factorial_bits n = Ok r /\ fin r = true /\
  Rabs (b2r r - logfact (Z.to_nat n)) <= / 8000000 * logfact (Z.to_nat n) + / 1000000000.
Proof.
  intros Hn. destruct (SpecialProof.table_entry n Hn) as (p & Ep & Hp). fold (logfact (Z.to_nat n)) in Hp.
  unfold FastLgamma.coeff, zget in *. destruct (Z.ltb_spec n 0); [lia |]. unfold vget in *.
  destruct (nth_error log_factorial_table (Z.to_nat n)) as [q |] eqn:En; [| discriminate]. injection Ep as <-.
  pose proof (all2_ok _ (fun l b => fact_rounded l b = true) (fun a b H => H) _ _ fact_rounded_all) as F2.
  assert (exists b, nth_error log_factorial_bits (Z.to_nat n) = Some b /\ fact_rounded q b = true) as (b & Eb & Hb).
  { revert F2 En. generalize (Z.to_nat n). generalize log_factorial_bits. generalize log_factorial_table. clear. induction l as [| a l IH]; intros bs k F2 En; [destruct k; discriminate En |].
    inversion F2; subst. destruct k; cbn [nth_error] in *; [injection En as <-; eauto | eauto]. }
  rewrite Eb. cbn [obind]. exists (b32_of_bits b). split; [reflexivity |]. pose proof (logfact_nonneg (Z.to_nat n)) as P. set (L := logfact (Z.to_nat n)) in *. clearbody L.
  unfold fact_rounded in Hb. destruct (fst q =? 0)%Z eqn:Z0.
  - apply Z.eqb_eq in Hb. apply Z.eqb_eq in Z0. subst b. split; [reflexivity |]. change (b2r (b32_of_bits 0)) with 0.
    unfold literal in Hp. destruct q as [m e]. cbn [fst snd] in *. subst m.
    assert ((if (0 <=? e)%Z then 0 * IZR (10 ^ e) else 0 / IZR (10 ^ - e)) = 0) as E0 by (destruct (0 <=? e)%Z; unfold Rdiv; ring).
    first [rewrite E0 in Hp | replace (if (0 <=? e)%Z then IZR (0 * 10 ^ e) else 0 / IZR (10 ^ - e)) with 0 in Hp by (destruct (0 <=? e)%Z; unfold Rdiv; rewrite ?Z.mul_0_l; ring)].
    lra.
  - destruct (rounded_ok q b Hb) as [F R]. split; [exact F |]. fold (b2r (b32_of_bits b)) in *. 
    set (v := b2r (b32_of_bits b)) in *.
    assert (ulp radix2 (SpecFloat.fexp 24 128) v <= / 8388608 * Rabs v + / 100000000000) as U.
    { assert (Prec_gt_0 24) as PG by reflexivity.
      destruct (Req_dec v 0) as [Z | NZ].
      - rewrite Z. change (SpecFloat.fexp 24 128) with (FLT_exp (-149) 24). rewrite ulp_FLT_small; [| exact PG | rewrite Rabs_R0; apply bpow_gt_0]. rewrite Rabs_R0.
        assert (bpow radix2 (-149) <= bpow radix2 (-60)) as B by (apply bpow_le; lia). change (bpow radix2 (-60)) with (/ 1152921504606846976) in B. lra.
      - change (SpecFloat.fexp 24 128) with (FLT_exp (-149) 24).
        destruct (Rle_or_lt (bpow radix2 (-126)) (Rabs v)) as [B | B].
        + pose proof (ulp_FLT_le radix2 (-149) 24 v) as Q. change (-149 + 24 - 1)%Z with (-126)%Z in Q. specialize (Q B).
          change (bpow radix2 (1 - 24)) with (/ 8388608) in Q. lra.
        + rewrite ulp_FLT_small; [| reflexivity | eapply Rlt_trans; [exact B | apply bpow_lt; reflexivity]].
          assert (bpow radix2 (-149) <= bpow radix2 (-60)) as B' by (apply bpow_le; lia). change (bpow radix2 (-60)) with (/ 1152921504606846976) in B'. pose proof (Rabs_pos v). lra. }
    change (v32 (b32_of_bits b)) with v in R. set (q' := literal q) in *. clearbody q' v. clear Hb F2 Eb En F.
    assert (Rabs (v - q') <= / 16777216 * Rabs v + / 100000000000) as R2 by (pose proof (Rabs_pos v); lra).
    assert (Rabs v <= Rabs q' + Rabs (v - q')) as T. { replace v with (q' + (v - q')) at 1 by ring. apply Rabs_triang. }
    assert (Rabs q' <= L + / 1000000000000) as T2. { apply Rabs_le_inv in Hp. apply Rabs_le. lra. }
    replace (v - L) with ((v - q') + (q' - L)) by ring. eapply Rle_trans; [apply Rabs_triang |]. lra.
Qed.
