(** Predictive scores computed in single precision. *)
From Coq Require Import List Reals Lra Lia ZArith Bool.
From Flocq Require Import Core BinarySingleNaN Binary Bits.
From Verif.model Require Import Base Packed Num Driver PitmanYor PitmanYorRun BB DD FastExp FloatNum FastLog.
From Verif.spec Require Import DriverSpec PartitionSpec LogSpec.
From Verif.proof Require Import DriverProof PitmanYorProof PitmanYorR LoopProof LnBounds FastExpProof FloatScoresProof FloatNichProof FastLogProof FloatRel.
Import ListNotations.
Local Open Scope R_scope.

Definition btw (a b : Z) (X : R) : Prop := bpow radix2 a <= X <= bpow radix2 b.
Lemma btw_pos a b X : btw a b X -> 0 < X.
Proof. intros [H _]. pose proof (bpow_gt_0 radix2 a). lra. Qed.
Lemma btw_weaken a b a' b' X : btw a b X -> (a' <= a)%Z -> (b <= b')%Z -> btw a' b' X.
Proof. intros [H K] A B. pose proof (bpow_le radix2 a' a A). pose proof (bpow_le radix2 b b' B). unfold btw. lra. Qed.
Lemma btw_usual a b X : btw a b X -> (-110 <= a)%Z -> (b <= 110)%Z -> usual X.
Proof. intros H A B. exact (btw_weaken _ _ _ _ _ H A B). Qed.
Lemma btw_add a b X Y : btw a b X -> 0 <= Y <= bpow radix2 b -> btw a (b + 1) (X + Y).
Proof. intros [H K] A. unfold btw. rewrite bpow_plus. change (bpow radix2 1) with 2. lra. Qed.
Lemma btw_mul a b c d X Y : btw a b X -> btw c d Y -> btw (a + c) (b + d) (X * Y).
Proof.
  intros H K. pose proof (btw_pos _ _ _ H) as PX. pose proof (btw_pos _ _ _ K) as PY. destruct H as [H1 H2]. destruct K as [K1 K2].
  unfold btw. rewrite !bpow_plus. pose proof (bpow_ge_0 radix2 a). pose proof (bpow_ge_0 radix2 c). split; apply Rmult_le_compat; lra.
Qed.
Lemma btw_inv a b X : btw a b X -> btw (- b) (- a) (/ X).
Proof.
  intros H. pose proof (btw_pos _ _ _ H). destruct H as [H1 H2]. unfold btw. rewrite !bpow_opp. pose proof (bpow_gt_0 radix2 a).
  split; apply Rinv_le_contravar; lra.
Qed.
Lemma btw_div a b c d X Y : btw a b X -> btw c d Y -> btw (a - d) (b - c) (X / Y).
Proof. intros H K. unfold Rdiv. apply btw_mul; [exact H | now apply btw_inv]. Qed.
Lemma btw_int n b : (1 <= n)%Z -> (n <= 2 ^ b)%Z -> (0 <= b)%Z -> btw 0 b (IZR n).
Proof. intros H K B. unfold btw. split; [apply (IZR_le 1); lia |]. rewrite <- IZR_Zpower by lia. apply IZR_le. exact K. Qed.
Lemma btw_count n b : (0 <= n)%Z -> (n <= 2 ^ b)%Z -> (0 <= b)%Z -> 0 <= IZR n <= bpow radix2 b.
Proof. intros H K B. split; [apply (IZR_le 0); lia |]. rewrite <- IZR_Zpower by lia. apply IZR_le. exact K. Qed.
Lemma btw_le b c X : 0 <= X <= bpow radix2 b -> (b <= c)%Z -> 0 <= X <= bpow radix2 c.
Proof. intros H K. pose proof (bpow_le radix2 b c K). lra. Qed.
Lemma btw_ln a b X : btw a b X -> (-200 <= a)%Z -> (b <= 200)%Z -> IZR a * ln 2 <= ln X <= IZR b * ln 2.
Proof.
  intros H A B. pose proof (btw_pos _ _ _ H). destruct H as [H1 H2].
  assert (forall e, ln (bpow radix2 e) = IZR e * ln 2) as L by (intros e; rewrite bpow_exp; rewrite ln_exp; reflexivity).
  split; rewrite <- L; apply ln_le'; try lra. apply bpow_gt_0.
Qed.

Lemma ord_near x : ordinary x -> near 0 x (b2r x) /\ btw (-30) 30 (b2r x).
Proof. intros [F H]. split; [| exact H]. apply near_self; [exact F |]. apply Rlt_le_trans with (bpow radix2 (-30)); [apply bpow_gt_0 | apply H]. Qed.
(** hyperparameter plus count *)
Lemma near_plus_count x n : ordinary x -> (0 <= n <= 4294967296)%Z ->
  near 2 (b32_plus mode_NE x (float_of_int n)) (b2r x + IZR n) /\ btw (-30) 33 (b2r x + IZR n).
Proof.
  intros O H. destruct (ord_near x O) as [N B].
  assert (btw (-30) 33 (b2r x + IZR n)) as B2.
  { apply (btw_add (-30) 32); [apply (btw_weaken _ _ _ _ _ B); lia |]. apply btw_count; lia. }
  split; [| exact B2]. replace 2 with (1 + 1) by ring. apply near_count; try lra; try lia.
  - apply near_weaken with 0; [exact N | lra].
  - now apply (btw_usual (-30) 30); [| lia | lia].
  - now apply (btw_usual (-30) 33); [| lia | lia].
Qed.
Lemma plus_comm32 x y : fin x = true -> fin y = true -> Rabs (b2r x + b2r y) <= bpow radix2 127 ->
  fin (b32_plus mode_NE x y) = true /\ b2r (b32_plus mode_NE x y) = b2r (b32_plus mode_NE y x).
Proof.
  intros Fx Fy H. destruct (plus_ok x y Fx Fy H) as [E F]. split; [exact F |]. rewrite Rplus_comm in H. destruct (plus_ok y x Fy Fx H) as [E' _]. rewrite E, E', Rplus_comm. reflexivity.
Qed.
Lemma near_ext k x y X : near k x X -> fin y = true -> b2r y = b2r x -> near k y X.
Proof. intros (A & B & C & D & E) F G. unfold near. rewrite G. repeat split; try assumption; lra. Qed.
Lemma near_count_plus x n : ordinary x -> (0 <= n <= 4294967296)%Z ->
  near 2 (b32_plus mode_NE (float_of_int n) x) (IZR n + b2r x) /\ btw (-30) 33 (IZR n + b2r x).
Proof.
  intros O H. destruct (near_plus_count x n O H) as [N B]. rewrite (Rplus_comm (IZR n)). split; [| exact B].
  destruct (int_rnd n ltac:(lia)) as [E F]. destruct O as [Fx Ox]. fold (b2r x) in Ox.
  assert (0 <= b2r (float_of_int n) <= 8589934592) as [L U].
  { destruct (Z.eq_dec n 0) as [-> | Hn]; [rewrite E, rnd_0; lra |]. pose proof (near_double _ _ _ (near_int n ltac:(lia))) as D.
    assert (IZR n <= 4294967296) by (apply (IZR_le _ 4294967296); lia). assert (0 <= IZR n) by (apply (IZR_le 0); lia). lra. }
  assert (Rabs (b2r (float_of_int n) + b2r x) <= bpow radix2 127) as R.
  { pose proof (bpow_ge_0 radix2 (-30)). rewrite Rabs_pos_eq by lra. change (bpow radix2 30) with 1073741824 in Ox.
    apply Rle_trans with (bpow radix2 40); [change (bpow radix2 40) with 1099511627776; lra | apply bpow_le; lia]. }
  destruct (plus_comm32 (float_of_int n) x F Fx R) as [F2 E2]. now apply (near_ext _ _ _ _ N).
Qed.
Lemma near_sum k l x y X Y : near k x X -> near l y Y -> k <= l -> l <= 3999999 -> usual (X + Y) -> near (l + 1) (b32_plus mode_NE x y) (X + Y).
Proof. intros A B K L U. apply near_add; try assumption. apply near_weaken with k; [exact A | lra]. Qed.

(** group size minus discount *)
Lemma below_one d : b2r d < 1 -> b2r d <= 1 - / 16777216.
Proof.
  intros H. pose proof (generic_format_B2R 24 128 d) as Fd. fold (b2r d) in Fd.
  assert (b2r d <= pred radix2 (SpecFloat.fexp 24 128) (bpow radix2 0)) as P.
  { apply pred_ge_gt; [apply fexp_correct; reflexivity | exact Fd | apply generic_format_bpow; vm_compute; discriminate | exact H]. }
  rewrite pred_bpow in P. change (SpecFloat.fexp 24 128 0) with (-24)%Z in P. change (bpow radix2 (-24)) with (/ 16777216) in P. exact P.
Qed.
Lemma near_minus_disc c d : (1 <= c < 2 ^ 31)%Z -> discount d ->
  near 3 (b32_minus mode_NE (float_of_int c) d) (IZR c - b2r d) /\ btw (-24) 31 (IZR c - b2r d).
Proof.
  intros H (Fd & D0 & D1). pose proof (below_one d D1) as D2. destruct (int_rnd c ltac:(lia)) as [E F].
  assert (0 <= b2r d) as D3 by (destruct D0 as [-> | D0]; [lra | pose proof (bpow_ge_0 radix2 (-30)); lra]).
  assert (1 <= IZR c <= 2147483648) as C by (split; [apply (IZR_le 1) | apply (IZR_le _ 2147483648)]; lia).
  assert (btw (-24) 31 (IZR c - b2r d)) as B.
  { unfold btw. change (bpow radix2 (-24)) with (/ 16777216). change (bpow radix2 31) with 2147483648. lra. }
  split; [| exact B].
  assert (forall k, 0 <= k <= 2 -> / 16777216 <= b2r (float_of_int c) - b2r d <= 5000000000 -> Rabs (ln (b2r (float_of_int c) - b2r d) - ln (IZR c - b2r d)) <= k * e23 ->
    near 3 (b32_minus mode_NE (float_of_int c) d) (IZR c - b2r d)) as K.
  { intros k Hk R L. destruct (minus_ok (float_of_int c) d F Fd) as [E2 F2].
    { rewrite Rabs_pos_eq by lra. apply Rle_trans with (bpow radix2 40); [change (bpow radix2 40) with 1099511627776; lra | apply bpow_le; lia]. }
    apply near_weaken with (k + 1); [| lra]. apply (near_round k _ (b2r (float_of_int c) - b2r d)); try assumption; try lra.
    apply Rle_trans with (bpow radix2 (-24)); [apply bpow_le; lia | change (bpow radix2 (-24)) with (/ 16777216); lra]. }
  destruct (Z_lt_le_dec c 16777216) as [Sm | Bg].
  - destruct (int_ok c ltac:(lia)) as [E3 _]. apply (K 0); rewrite ?E3; try lra. rewrite Rminus_eq_0, Rabs_R0. lra.
  - assert (16777216 <= IZR c) as C2 by (apply (IZR_le 16777216); lia).
    pose proof (rnd_err (IZR c)) as R. rewrite (Rabs_pos_eq (IZR c)) in R by lra. rewrite <- E in R.
    assert (eta32 <= / 16777216) as ET by (unfold eta32; apply (bpow_le radix2 (-150) (-24)); lia). unfold u24 in R.
    destruct (ln_ratio (IZR c - b2r d) (b2r (float_of_int c) - b2r d) (3 / 33554432)) as [P L]; [lra | lra | |].
    { replace (b2r (float_of_int c) - b2r d - (IZR c - b2r d)) with (b2r (float_of_int c) - IZR c) by ring. lra. }
    apply Rabs_le_inv in R. apply (K 2); try lra. eapply Rle_trans; [exact L |]. unfold e23. lra.
Qed.
(** alpha + d * K *)
Lemma near_numer a d K : ordinary a -> discount d -> (0 <= K <= 4294967296)%Z ->
  near 3 (b32_plus mode_NE a (b32_mult mode_NE d (float_of_int K))) (b2r a + b2r d * IZR K) /\ btw (-30) 33 (b2r a + b2r d * IZR K).
Proof.
  intros O (Fd & D0 & D1) HK. destruct (ord_near a O) as [Na Ba]. destruct (int_rnd K ltac:(lia)) as [E F].
  assert (0 <= b2r d) as D3 by (destruct D0 as [-> | D0]; [lra | pose proof (bpow_ge_0 radix2 (-30)); lra]).
  assert (0 <= IZR K <= bpow radix2 32) as K32 by (apply btw_count; lia).
  assert (btw (-30) 33 (b2r a + b2r d * IZR K)) as B.
  { apply (btw_add (-30) 32); [apply (btw_weaken _ _ _ _ _ Ba); lia |]. split; [apply Rmult_le_pos; lra |].
    apply Rle_trans with (1 * IZR K); [apply Rmult_le_compat_r; lra | lra]. }
  split; [| exact B].
  assert (b2r d * b2r (float_of_int K) = 0 -> b2r d * IZR K = 0 -> near 3 (b32_plus mode_NE a (b32_mult mode_NE d (float_of_int K))) (b2r a + b2r d * IZR K)) as Z.
  { intros Z Z2. rewrite Z2, Rplus_0_r. apply near_weaken with 0; [| lra].
    destruct (mult_ok d (float_of_int K) Fd F) as [E2 F2]; [rewrite Z, Rabs_R0; apply bpow_ge_0 |].
    apply near_add_same; [exact Na | exact F2 | rewrite E2, Z; apply rnd_0 | now apply (btw_usual (-30) 30); [| lia | lia]]. }
  destruct D0 as [D0 | D0]; [apply Z; rewrite D0; ring |].
  destruct (Z.eq_dec K 0) as [-> | HK0]; [apply Z; rewrite ?E, ?rnd_0; ring |].
  assert (btw (-30) 0 (b2r d)) as Bd by (split; [exact D0 | change (bpow radix2 0) with 1; lra]).
  assert (btw 0 32 (IZR K)) as BK by (apply btw_int; lia).
  assert (near 0 d (b2r d)) as Nd by (apply near_self; [exact Fd | exact (btw_pos _ _ _ Bd)]).
  pose proof (near_mul 0 1 d _ _ _ Nd (near_int K ltac:(lia)) ltac:(lra) ltac:(apply (btw_usual (-30) 32); [apply (btw_mul (-30) 0 0 32); assumption | lia | lia])) as Nm.
  replace (0 + 1 + 1) with 2 in Nm by ring. replace 3 with (2 + 1) by ring.
  apply (near_sum 0 2); [exact Na | exact Nm | lra | lra | now apply (btw_usual (-30) 33); [| lia | lia]].
Qed.

Definition tenk : R := / 10000.
Lemma score_close log2 k x X : good_log2 log2 -> near k x X -> usual X -> k <= 200 -> scores tenk X (fast_log32 log2 x).
Proof.
  intros G N U K. pose proof (usual_pos X U) as P. destruct (near_log log2 k x X G N U) as [F H]. split; [exact P |]. split; [exact F |].
  fold (b2r (fast_log32 log2 x)). destruct N as (_ & _ & _ & K0 & _). unfold log_band, e23, tenk in *. apply Rabs_le. lra.
Qed.

Lemma opp_fin t : fin t = true -> fin (b32_opp t) = true.
Proof. intros F. now destruct t. Qed.
Lemma opp_val t : b2r (b32_opp t) = - b2r t.
Proof. apply B2R_Bopp. Qed.

Lemma in_le_sum l n : List.Forall (fun c => 0 <= c)%Z l -> In n l -> (n <= sum_sizes l)%Z.
Proof.
  induction 1 as [| c l Hc Hl IH]; cbn [In sum_sizes]; [tauto |]. pose proof (sum_sizes_nonneg _ Hl). intros [-> | Hi]; [lia |]. specialize (IH Hi). lia.
Qed.
Lemma forall2_map {A B C} (f : A -> B) (P : B -> C -> Prop) l m : List.Forall2 P (map f l) m <-> List.Forall2 (fun a c => P (f a) c) l m.
Proof.
  split; intros H.
  - revert m H. induction l as [| a l IH]; cbn [map]; intros m H; inversion H; subst; constructor; auto.
  - induction H; cbn [map]; constructor; auto.
Qed.
Lemma rule_wt a d n K e c : 0 < a -> 0 <= n -> 0 < e -> py_rule a d n K e (IZR c) = wt (mk_py a d) n K e c.
Proof.
  intros Ha Hn He. unfold py_rule, wt. cbn [alpha disc]. destruct (Z.eqb_spec c 0) as [-> | Hne]; destruct (Req_EM_T _ 0) as [E0 | E0]; try reflexivity.
  - field. lra.
  - exfalso; apply E0; reflexivity.
  - exfalso. apply Hne. now apply eq_IZR.
Qed.
Lemma rule_total a d l : 0 < a -> 0 <= d < 1 -> List.Forall (fun c => 0 <= c)%Z l -> In 0%Z l ->
  rsum (map (fun n => py_rule a d (IZR (sum_sizes l)) (IZR (Z.of_nat (length l - num_empty l))) (IZR (Z.of_nat (num_empty l))) (IZR n)) l) = 1.
Proof.
  intros Ha Hd Hp Hz. apply num_empty_In in Hz. pose proof (sum_sizes_nonneg _ Hp) as Hn. apply (IZR_le 0) in Hn.
  assert (0 < IZR (Z.of_nat (num_empty l))) as He by (apply (IZR_lt 0); lia).
  rewrite (map_ext _ (wt (mk_py a d) (IZR (sum_sizes l)) (IZR (Z.of_nat (length l - num_empty l))) (IZR (Z.of_nat (num_empty l))))) by (intros c; now apply rule_wt).
  rewrite sum_wt; try assumption; [| now split]. cbn [alpha disc]. rewrite !INR_IZR_INZ. field. lra.
Qed.
Lemma close_total err (ps : list R) l : 0 <= err <= / 4 -> List.Forall2 (fun p s => scores err p s) ps l ->
  Rabs (rsum (map (fun s => exp (b2r s)) l) - rsum ps) <= 2 * err * rsum ps.
Proof.
  intros He H. induction H as [| p s ps l (P & F & C) _ IH]; cbn [map rsum]; [rewrite Rminus_eq_0, Rabs_R0; lra |].
  fold (b2r s) in C. replace (exp (b2r s) + rsum (map (fun s0 => exp (b2r s0)) l) - (p + rsum ps)) with ((exp (b2r s) - p) + (rsum (map (fun s0 => exp (b2r s0)) l) - rsum ps)) by ring.
  eapply Rle_trans; [apply Rabs_triang |]. rewrite Rmult_plus_distr_l. apply Rplus_le_compat; [| exact IH].
  replace (exp (b2r s) - p) with (p * (exp (b2r s - ln p) - 1)) by (unfold Rminus; rewrite exp_plus, exp_Ropp, exp_ln by exact P; field; lra).
  rewrite Rabs_mult, (Rabs_pos_eq p) by lra. rewrite (Rmult_comm (2 * err)). apply Rmult_le_compat_l; [lra |].
  set (t := b2r s - ln p) in *. clearbody t. apply Rabs_le_inv in C. pose proof (exp_ineq1_le t) as U. pose proof (exp_ineq1_le (- t)) as V. rewrite exp_Ropp in V.
  pose proof (exp_pos t) as PE. apply Rabs_le. split; [lra |].
  assert ((1 - t) * exp t <= 1) as Q by (apply Rle_trans with (/ exp t * exp t); [apply Rmult_le_compat_r; lra | rewrite Rinv_l; lra]).
  assert ((1 - err) * exp t <= 1) as Q2 by (eapply Rle_trans; [| exact Q]; apply Rmult_le_compat_r; lra).
  assert (exp t <= 1 + 2 * err); [| lra]. apply Rmult_le_reg_l with (1 - err); [lra |]. eapply Rle_trans; [exact Q2 |].
  assert (err * err <= err * / 4) by (apply Rmult_le_compat_l; lra). lra.
Qed.

Section S.
  Variables (tbl : list Z) (lit : Z -> Z -> binary32) (log2 : binary32 -> binary32)
    (lgam lgam_nu : binary32 -> binary32) (lfact : Z -> binary32) (sq : binary32 -> binary32) (pw : binary32 -> binary32 -> binary32).
  Hypothesis G : good_log2 log2.
  Let NB : Num binary32 := NumB tbl lit (fast_log32 log2) lgam lgam_nu lfact sq pw.

  Lemma bb_close (sh : bb_shared binary32) (g : bb_group) (v : bool) : ordinary (bb_alpha sh) -> ordinary (bb_beta sh) ->
    (0 <= bb_heads g < 2 ^ 31)%Z -> (0 <= bb_tails g < 2 ^ 31)%Z ->
    let a := b2r (bb_alpha sh) + IZR (bb_heads g) in let b := b2r (bb_beta sh) + IZR (bb_tails g) in
    scores tenk ((if v then a else b) / (a + b)) (bb_score_value (N:=NB) sh g v).
  Proof.
    intros A B H T a b. destruct (near_plus_count (bb_alpha sh) (bb_heads g) A ltac:(lia)) as [Na Ba]. destruct (near_plus_count (bb_beta sh) (bb_tails g) B ltac:(lia)) as [Nb Bb].
    fold a in Na, Ba. fold b in Nb, Bb.
    assert (btw (-30) 34 (a + b)) as Bs by (apply (btw_add (-30) 33); [exact Ba |]; pose proof (btw_pos _ _ _ Bb); destruct Bb; lra).
    pose proof (near_add 2 _ _ _ _ Na Nb ltac:(lra) ltac:(apply (btw_usual _ _ _ Bs); lia)) as Ns.
    unfold bb_score_value, bb_scorer_init, bb_scorer_eval. cbn [fst snd nadd ndiv nof nlog NB NumB].
    destruct v; (eapply score_close; [exact G | apply near_div; [eassumption | exact Ns | lra |] | | lra]); apply (btw_usual (-64) 63); try lia; apply (btw_div (-30) 33 (-30) 34); assumption.
  Qed.

  Lemma py_add_close (m : py binary32) c K n e : ordinary (alpha m) -> discount (disc m) ->
    (0 <= c < 2 ^ 31)%Z -> (0 <= K <= 4294967296)%Z -> (0 <= n < 2 ^ 31)%Z -> (1 <= e <= 4294967296)%Z ->
    scores tenk (py_rule (b2r (alpha m)) (b2r (disc m)) (IZR n) (IZR K) (IZR e) (IZR c)) (py_score_add (N:=NB) m c K n e).
  Proof.
    intros A D Hc HK Hn He. destruct (near_count_plus (alpha m) n A ltac:(lia)) as [Nn Bn].
    unfold py_score_add, py_rule. cbn [nof nlog nadd nsub nmul ndiv NB NumB].
    destruct (Z.eqb_spec c 0) as [-> | Hc0]; destruct (Req_EM_T _ 0) as [E0 | E0]; try (exfalso; apply E0; reflexivity); try (exfalso; apply Hc0; now apply eq_IZR).
    - destruct (near_numer (alpha m) (disc m) K A D HK) as [Nk Bk]. assert (btw 0 32 (IZR e)) as Be by (apply btw_int; lia).
      assert (btw (-30) 65 ((IZR n + b2r (alpha m)) * IZR e)) as Bd by (apply (btw_mul (-30) 33 0 32); assumption).
      pose proof (near_mul 2 1 _ _ _ _ Nn (near_int e ltac:(lia)) ltac:(lra) ltac:(apply (btw_usual _ _ _ Bd); lia)) as Nd.
      assert (btw (-95) 63 ((b2r (alpha m) + b2r (disc m) * IZR K) / ((IZR n + b2r (alpha m)) * IZR e))) as Bq by (apply (btw_div (-30) 33 (-30) 65); assumption).
      replace ((b2r (alpha m) + b2r (disc m) * IZR K) / IZR e / (IZR n + b2r (alpha m))) with ((b2r (alpha m) + b2r (disc m) * IZR K) / ((IZR n + b2r (alpha m)) * IZR e))
        by (field; pose proof (btw_pos _ _ _ Bn); pose proof (btw_pos _ _ _ Be); lra).
      eapply score_close; [exact G | apply near_div; [exact Nk | exact Nd | lra |] | | lra]; apply (btw_usual _ _ _ Bq); lia.
    - destruct (near_minus_disc c (disc m) ltac:(lia) D) as [Nc Bc].
      assert (btw (-57) 61 ((IZR c - b2r (disc m)) / (IZR n + b2r (alpha m)))) as Bq by (apply (btw_div (-24) 31 (-30) 33); assumption).
      eapply score_close; [exact G | apply near_div; [exact Nc | exact Nn | lra |] | | lra]; apply (btw_usual _ _ _ Bq); lia.
  Qed.

  Lemma cached_close k l x y X Y : near k x X -> near l y Y -> k <= 10 -> l <= 10 -> btw (-62) 33 X -> btw (-30) 33 Y ->
    scores tenk (X / Y) (b32_plus mode_NE (fast_log32 log2 x) (b32_opp (fast_log32 log2 y))).
  Proof.
    intros Nx Ny Hk Hl Bx By. pose proof (btw_pos _ _ _ Bx) as Px. pose proof (btw_pos _ _ _ By) as Py.
    destruct (near_log log2 k x X G Nx ltac:(apply (btw_usual _ _ _ Bx); lia)) as [Fs Hs]. destruct (near_log log2 l y Y G Ny ltac:(apply (btw_usual _ _ _ By); lia)) as [Ft Ht].
    pose proof (btw_ln _ _ _ Bx ltac:(lia) ltac:(lia)) as Lx. pose proof (btw_ln _ _ _ By ltac:(lia) ltac:(lia)) as Ly.
    destruct Nx as (_ & _ & _ & Kx & _). destruct Ny as (_ & _ & _ & Ky & _).
    set (s := fast_log32 log2 x) in *. set (t := fast_log32 log2 y) in *. clearbody s t.
    assert (ln 2 <= 7 / 10) as L2 by (pose proof ln2_hi; lra). assert (0 <= ln 2) as L3 by (pose proof ln2_lo; lra).
    unfold log_band, e23 in Hs, Ht.
    assert (fin (b32_opp t) = true /\ b2r (b32_opp t) = - b2r t) as [Fo Eo] by (split; [now apply opp_fin | apply opp_val]).
    destruct (plus_ok s (b32_opp t) Fs Fo) as [E F].
    { rewrite Eo. apply Rle_trans with (bpow radix2 10); [| apply bpow_le; lia]. change (bpow radix2 10) with 1024. apply Rabs_le. lra. }
    pose proof (rnd_err (b2r s + b2r (b32_opp t))) as R. rewrite <- E in R. rewrite Eo in R.
    assert (Rabs (b2r s + - b2r t) <= 75) as A by (apply Rabs_le; lra).
    assert (eta32 <= / 16777216) as ET by (unfold eta32; apply (bpow_le radix2 (-150) (-24)); lia). unfold u24 in R. apply Rabs_le_inv in R.
    split; [now apply Rdiv_lt_0_compat |]. split; [exact F |]. fold (b2r (b32_plus mode_NE s (b32_opp t))).
    assert (ln (X / Y) = ln X - ln Y) as -> by (unfold Rdiv; rewrite ln_mult, ln_Rinv; try lra; now apply Rinv_0_lt_compat).
    unfold tenk. apply Rabs_le. lra.
  Qed.

  Lemma py_cached_close (m : py binary32) dl old cs ops sizes outs : ordinary (alpha m) -> discount (disc m) ->
    sizes_ok cs -> dhistory cs ops sizes outs -> (Z.of_nat (length sizes) <= 4294967296)%Z ->
    exists c0 c l, py_init (N:=NB) dl m old cs = Ok c0 /\ pyrun (N:=NB) dl m c0 ops = Ok (c, outs) /\
      py_score_value (N:=NB) dl m c (length sizes) = Ok l /\
      List.Forall2 (fun n s => scores tenk (py_rule (b2r (alpha m)) (b2r (disc m)) (IZR (sum_sizes sizes))
          (IZR (Z.of_nat (length sizes - num_empty sizes))) (IZR (Z.of_nat (num_empty sizes))) (IZR n)) s) sizes l /\
      Rabs (rsum (map (fun s => exp (b2r s)) l) - 1) <= 2 * tenk.
  Proof.
    intros A D Hok Hh Len. destruct (py_init_ok (N:=NB) dl m old cs Hok) as (c0 & E0 & H0 & Hc0). subst cs.
    destruct (py_run_ok (N:=NB) dl m ops c0 sizes outs H0 Hh) as (c & E & H & Hc). subst sizes.
    pose proof (pi_d _ _ H) as Hd. pose proof (dinv_nonneg _ Hd) as Hp. pose proof (dinv_has _ Hd) as Hz. pose proof (dinv_bound _ Hd) as Hb.
    set (sizes := counts (cdriver c)) in *. assert (num_empty sizes <= length sizes)%nat as Hle by apply count_occ_bound.
    assert (1 <= num_empty sizes)%nat as He by now apply num_empty_In.
    exists c0, c. eexists. split; [exact E0 |]. split; [exact E |]. split; [apply py_score_value_ok; exact H |]. fold sizes.
    match goal with |- ?A /\ ?B => assert A as FA; [| split; [exact FA |]] end.
    - assert (forall n, In n sizes -> 0 <= n < 2 ^ 31)%Z as Hin.
      { intros n Hn. pose proof (in_le_sum sizes n Hp Hn). pose proof Hp as Hp'. rewrite List.Forall_forall in Hp'. pose proof (Hp' n Hn). lia. }
      assert (forall l, (forall n, In n l -> 0 <= n < 2 ^ 31)%Z -> List.Forall2 (fun n s => scores tenk (py_rule (b2r (alpha m)) (b2r (disc m)) (IZR (sum_sizes sizes))
          (IZR (Z.of_nat (length sizes - num_empty sizes))) (IZR (Z.of_nat (num_empty sizes))) (IZR n)) s) l
        (map (fun n => nadd (Num:=NB) (fS (N:=NB) m (fE (N:=NB) m sizes) n) (nneg (Num:=NB) (nlog (Num:=NB) (nadd (Num:=NB) (nof (Num:=NB) (sum_sizes sizes)) (alpha m))))) l)) as Q.
      { induction l as [| n l IH]; intros Hl; cbn [map]; constructor.
        - specialize (Hl n ltac:(now left)). pose proof (sum_sizes_nonneg _ Hp) as S0.
          destruct (near_count_plus (alpha m) (sum_sizes sizes) A ltac:(lia)) as [Nn Bn].
          unfold fS, fN, fE, py_rule. cbn [nof nlog nadd nsub nmul ndiv nneg NB NumB].
          destruct (Z.eqb_spec n 0) as [-> | Hn0]; destruct (Req_EM_T _ 0) as [Z0 | Z0]; try (exfalso; apply Z0; reflexivity); try (exfalso; apply Hn0; now apply eq_IZR).
          + destruct (near_numer (alpha m) (disc m) (Z.of_nat (length sizes - num_empty sizes)) A D ltac:(lia)) as [Nk Bk].
            assert (btw 0 32 (IZR (Z.of_nat (num_empty sizes)))) as Be by (apply btw_int; lia).
            replace (Z.of_nat (length sizes) - Z.of_nat (num_empty sizes))%Z with (Z.of_nat (length sizes - num_empty sizes)) by lia.
            assert (btw (-62) 33 ((b2r (alpha m) + b2r (disc m) * IZR (Z.of_nat (length sizes - num_empty sizes))) / IZR (Z.of_nat (num_empty sizes)))) as Bq by (apply (btw_div (-30) 33 0 32); assumption).
            apply (cached_close 5 2); [| exact Nn | lra | lra | exact Bq | exact Bn]. replace 5 with (3 + 1 + 1) by ring.
            apply near_div; [exact Nk | apply near_int; lia | lra | apply (btw_usual _ _ _ Bq); lia].
          + destruct (near_minus_disc n (disc m) ltac:(lia) D) as [Nc Bc].
            apply (cached_close 3 2); [exact Nc | exact Nn | lra | lra | apply (btw_weaken _ _ _ _ _ Bc); lia | exact Bn].
        - apply IH. intros k Hk. apply Hl. now right. }
      apply Q. exact Hin.
    - pose proof (btw_pos _ _ _ (proj2 (ord_near _ A))) as PA. destruct D as (Fd & D0 & D1).
      assert (0 <= b2r (disc m)) as D3 by (destruct D0 as [-> | D0]; [lra | pose proof (bpow_ge_0 radix2 (-30)); lra]).
      pose proof (rule_total (b2r (alpha m)) (b2r (disc m)) sizes PA ltac:(lra) Hp Hz) as T.
      match type of FA with List.Forall2 _ _ ?l => set (out := l) in * end.
      pose proof (close_total tenk _ out ltac:(unfold tenk; lra) (proj2 (forall2_map _ _ _ _) FA)) as CT. rewrite T, Rmult_1_r in CT. exact CT.
  Qed.

  Lemma bb_total (sh : bb_shared binary32) (g : bb_group) : ordinary (bb_alpha sh) -> ordinary (bb_beta sh) ->
    (0 <= bb_heads g < 2 ^ 31)%Z -> (0 <= bb_tails g < 2 ^ 31)%Z ->
    Rabs (exp (b2r (bb_score_value (N:=NB) sh g true)) + exp (b2r (bb_score_value (N:=NB) sh g false)) - 1) <= 2 * tenk.
  Proof.
    intros A B H T. pose proof (bb_close sh g true A B H T) as C1. pose proof (bb_close sh g false A B H T) as C2. cbv zeta in C1, C2.
    pose proof (close_total tenk _ _ ltac:(unfold tenk; lra) (List.Forall2_cons _ _ C1 (List.Forall2_cons _ _ C2 (List.Forall2_nil _)))) as CT.
    cbn [map rsum] in CT. rewrite !Rplus_0_r in CT. cbn iota in CT. rewrite <- Rdiv_plus_distr in CT.
    set (a := b2r (bb_alpha sh) + IZR (bb_heads g)) in *. set (b := b2r (bb_beta sh) + IZR (bb_tails g)) in *.
    assert (0 < a + b) as P by (destruct (near_plus_count (bb_alpha sh) (bb_heads g) A ltac:(lia)) as [_ Ba]; destruct (near_plus_count (bb_beta sh) (bb_tails g) B ltac:(lia)) as [_ Bb];
      pose proof (btw_pos _ _ _ Ba); pose proof (btw_pos _ _ _ Bb); unfold a, b; lra).
    replace ((a + b) / (a + b)) with 1 in CT by (field; lra). rewrite Rmult_1_r in CT. exact CT.
  Qed.
End S.
