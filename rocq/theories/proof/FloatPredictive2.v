(** Predictive scores of DirichletDiscrete and DirichletProcessDiscrete in single precision. *)
From Coq Require Import List Reals Lra Lia ZArith Bool.
From Flocq Require Import Core BinarySingleNaN Binary Bits.
From Verif.model Require Import Base Packed Num Sparse DD DPD FastExp FloatNum FastLog.
From Verif.spec Require Import DriverSpec PartitionSpec LogSpec.
From Verif.proof Require Import DriverProof LoopProof LnBounds FastExpProof FloatScoresProof FloatNichProof FastLogProof FloatRel FloatPredictive.
From stdpp Require Import gmap.
Import ListNotations.
Local Open Scope R_scope.

Definition wts (al : list binary32) (cs : list Z) : list R := map (fun p => b2r (fst p) + IZR (snd p)) (combine al cs).
Lemma wts_total al : forall cs, length cs = length al -> rsum (wts al cs) = rsum (map b2r al) + IZR (sum_sizes cs).
Proof.
  unfold wts. induction al as [| a al IH]; intros [| c cs] H; cbn [combine map rsum length sum_sizes fst snd] in *; try discriminate; [lra |].
  rewrite IH by (injection H; auto). rewrite plus_IZR. ring.
Qed.
Lemma wts_nth al cs i a c : nth_error al i = Some a -> nth_error cs i = Some c -> nth_error (wts al cs) i = Some (b2r a + IZR c).
Proof.
  revert cs i. unfold wts. induction al as [| a0 al IH]; intros [| c0 cs] [| i]; cbn [nth_error combine map fst snd]; try discriminate.
  - intros [= <-] [= <-]. reflexivity.
  - apply IH.
Qed.
Lemma rsum_snoc l x : rsum (l ++ [x]) = rsum l + x.
Proof. induction l as [| y l IH]; cbn [app rsum]; [ring | rewrite IH; ring]. Qed.
Lemma firstn_snoc {A} (l : list A) i x : nth_error l i = Some x -> firstn (S i) l = firstn i l ++ [x].
Proof.
  revert i. induction l as [| y l IH]; intros [| i]; cbn [nth_error firstn app]; try discriminate; [now intros [= ->] |].
  intros H. f_equal. now apply IH.
Qed.

Section S.
  Variables (tbl : list Z) (lit : Z -> Z -> binary32) (log2 : binary32 -> binary32)
    (lgam lgam_nu : binary32 -> binary32) (lfact : Z -> binary32) (sq : binary32 -> binary32) (pw : binary32 -> binary32 -> binary32).
  Hypothesis G : good_log2 log2.
  Let NB : Num binary32 := NumB tbl lit (fast_log32 log2) lgam lgam_nu lfact sq pw.

  Definition dd_inv (sh : dd_shared binary32) (g : dd_group) (i : nat) (s : binary32 * list binary32) : Prop :=
    length (snd s) = i /\
    (forall j x, nth_error (snd s) j = Some x -> exists a c, nth_error (dd_alphas sh) j = Some a /\ nth_error (dd_counts g) j = Some c /\ x = b32_plus mode_NE a (float_of_int c)) /\
    match i with
    | O => FastExpProof.fin (fst s) = true /\ b2r (fst s) = 0
    | S _ => near (2 + IZR (Z.of_nat i)) (fst s) (rsum (firstn i (wts (dd_alphas sh) (dd_counts g)))) /\
             bpow radix2 (-30) <= rsum (firstn i (wts (dd_alphas sh) (dd_counts g))) <= IZR (Z.of_nat i) * bpow radix2 33
    end.
  Lemma dd_inv_step (sh : dd_shared binary32) (g : dd_group) i s a0 c0 :
    nth_error (dd_alphas sh) i = Some a0 -> nth_error (dd_counts g) i = Some c0 -> ordinary a0 -> (0 <= c0 < 2 ^ 31)%Z ->
    (Z.of_nat i <= 524288)%Z -> dd_inv sh g i s ->
    dd_inv sh g (S i) (b32_plus mode_NE (fst s) (b32_plus mode_NE a0 (float_of_int c0)), snd s ++ [b32_plus mode_NE a0 (float_of_int c0)]).
  Proof.
    intros E1 E2 Oa Oc Hi (L & X & Y). unfold dd_inv. cbn [fst snd].
    destruct (near_plus_count a0 c0 Oa ltac:(lia)) as [Na Ba]. pose proof (wts_nth _ _ i a0 c0 E1 E2) as EW. set (W := wts (dd_alphas sh) (dd_counts g)) in *.
    pose proof Ba as [Ba1 Ba2]. set (B := bpow radix2 33) in *.
    assert (IZR (Z.of_nat (S i)) = IZR (Z.of_nat i) + 1) as SI by (rewrite Nat2Z.inj_succ, succ_IZR; reflexivity).
    assert (IZR (Z.of_nat i) <= 524288) as Ui by (apply (IZR_le _ 524288); lia). assert (0 <= IZR (Z.of_nat i)) as Li by (apply (IZR_le 0); lia).
    set (al := b32_plus mode_NE a0 (float_of_int c0)) in *. assert (al = b32_plus mode_NE a0 (float_of_int c0)) as Eal by reflexivity. clearbody al.
    split; [rewrite app_length; cbn; lia |]. split.
    { intros j x Hj. destruct (Nat.lt_ge_cases j (length (snd s))) as [J | J].
      - rewrite nth_error_app1 in Hj by exact J. now apply X.
      - rewrite nth_error_app2 in Hj by exact J. destruct (j - length (snd s))%nat as [| [| k]] eqn:EJ; cbn in Hj; try discriminate. injection Hj as <-.
        assert (j = i) as -> by lia. exists a0, c0. auto. }
    rewrite (firstn_snoc W i _ EW), rsum_snoc, SI. destruct i as [| i].
    - destruct Y as [Fz Ez]. cbn [firstn rsum]. rewrite !Rplus_0_l. change (IZR (Z.of_nat 0)) with 0. split; [| lra].
      pose proof Na as (Fa & Pa & _). destruct (plus_comm32 (fst s) al Fz Fa) as [F2 E3].
      { rewrite Ez, Rplus_0_l. destruct (usual_range _ _ ltac:(apply (btw_usual _ _ _ Ba); lia) (near_double _ _ _ Na)) as [_ R]. exact R. }
      apply near_weaken with 2; [| lra]. refine (near_ext 2 (b32_plus mode_NE al (fst s)) _ _ _ F2 E3).
      apply near_add_same; try assumption. apply (btw_usual _ _ _ Ba); lia.
    - destruct Y as [Ny By]. pose proof (bpow_ge_0 radix2 (-30)). split; [| lra].
      replace (2 + (IZR (Z.of_nat (S i)) + 1)) with (2 + IZR (Z.of_nat (S i)) + 1) by ring. apply near_add; try assumption; try lra.
      + apply near_weaken with 2; [exact Na | lra].
      + apply (btw_usual (-30) 60); try lia. split; [lra |].
        apply Rle_trans with (bpow radix2 20 * B); [| unfold B; rewrite <- bpow_plus; apply bpow_le; lia].
        assert (0 <= B) by apply bpow_ge_0. change (bpow radix2 20) with 1048576.
        assert (IZR (Z.of_nat (S i)) * B <= 524288 * B) by (apply Rmult_le_compat_r; lra). lra.
  Qed.
  Lemma dd_loop (sh : dd_shared binary32) (g : dd_group) :
    List.Forall ordinary (dd_alphas sh) -> List.Forall (fun c => 0 <= c < 2 ^ 31)%Z (dd_counts g) ->
    length (dd_counts g) = length (dd_alphas sh) -> (Z.of_nat (length (dd_alphas sh)) <= 524288)%Z ->
    exists s, dd_scorer_init (N:=NB) sh g = Ok s /\ dd_inv sh g (length (dd_alphas sh)) s.
  Proof.
    intros HA HC HL HN. unfold dd_scorer_init, dd_dim.
    apply (vfor_inv (dd_inv sh g)).
    - split; [reflexivity |]. split; [intros [| j] x; discriminate |]. cbn [fst]. change (nof (Num:=NB) 0) with (float_of_int 0). destruct (int_ok 0 ltac:(lia)) as [E F]. now split.
    - intros i s Hi Q.
      assert (exists a0, nth_error (dd_alphas sh) i = Some a0) as [a0 E1].
      { destruct (nth_error (dd_alphas sh) i) eqn:E; [eauto |]. apply nth_error_None in E. lia. }
      assert (exists c0, nth_error (dd_counts g) i = Some c0) as [c0 E2].
      { destruct (nth_error (dd_counts g) i) eqn:E; [eauto |]. apply nth_error_None in E. lia. }
      unfold vget. rewrite E1, E2. cbn [obind]. eexists. split; [reflexivity |].
      apply dd_inv_step; try assumption; try lia.
      + exact (proj1 (List.Forall_forall _ _) HA a0 (nth_error_In _ _ E1)).
      + exact (proj1 (List.Forall_forall _ _) HC c0 (nth_error_In _ _ E2)).
  Qed.
  Lemma dd_close dl (sh : dd_shared binary32) (g : dd_group) v a c :
    List.Forall ordinary (dd_alphas sh) -> List.Forall (fun c => 0 <= c < 2 ^ 31)%Z (dd_counts g) ->
    length (dd_counts g) = length (dd_alphas sh) -> (Z.of_nat (length (dd_alphas sh)) <= 524288)%Z ->
    nth_error (dd_alphas sh) v = Some a -> nth_error (dd_counts g) v = Some c ->
    exists s, dd_score_value (N:=NB) dl sh g (Z.of_nat v) = Ok s /\
      scores (tenk + IZR (Z.of_nat (length (dd_alphas sh))) * e23)
        ((b2r a + IZR c) / (rsum (map b2r (dd_alphas sh)) + IZR (sum_sizes (dd_counts g)))) s.
  Proof.
    intros HA HC HL HN Ea Ec. destruct (dd_loop sh g HA HC HL HN) as (s & Es & L & X & Y). set (n := length (dd_alphas sh)) in *.
    assert (v < n)%nat as Hv by (apply nth_error_Some; rewrite Ea; discriminate).
    unfold dd_score_value, dd_scorer_eval, dd_dim. rewrite Es. cbn [obind]. fold n.
    assert (forall b, b = true -> dassert_at dl 1 b = Ok tt) as DA by (intros b ->; unfold dassert_at, dassert; now destruct (1 <=? dl)%nat).
    rewrite DA by (apply Z.ltb_lt; lia). cbn [obind]. unfold zget. destruct (Z.ltb_spec (Z.of_nat v) 0); [lia |]. rewrite Nat2Z.id. unfold vget.
    destruct (nth_error (snd s) v) as [x |] eqn:Ex; [| apply nth_error_None in Ex; lia]. cbn [obind]. eexists. split; [reflexivity |].
    cbn [ndiv nlog NB NumB].
    destruct (X v x Ex) as (a1 & c1 & Ea1 & Ec1 & ->). rewrite Ea in Ea1. rewrite Ec in Ec1. injection Ea1 as <-. injection Ec1 as <-.
    pose proof (proj1 (List.Forall_forall _ _) HA a (nth_error_In _ _ Ea)) as Oa. pose proof (proj1 (List.Forall_forall _ _) HC c (nth_error_In _ _ Ec)) as Oc. cbn beta in Oc.
    destruct (near_plus_count a c Oa ltac:(lia)) as [Na Ba]. set (al := b32_plus mode_NE a (float_of_int c)) in *. clearbody al.
    assert (length (wts (dd_alphas sh) (dd_counts g)) = n) as LW by (unfold wts; rewrite map_length, combine_length; fold n; lia).
    destruct n as [| n'] eqn:En; [lia |]. rewrite <- En in *.
    destruct Y as [Ny By]. rewrite firstn_all2 in Ny, By by lia. rewrite wts_total in Ny, By by lia.
    assert (IZR (Z.of_nat n) <= 524288) as Ui by (apply (IZR_le _ 524288); lia). assert (0 <= IZR (Z.of_nat n)) as Li by (apply (IZR_le 0); lia).
    set (T := rsum (map b2r (dd_alphas sh)) + IZR (sum_sizes (dd_counts g))) in *. clearbody T.
    assert (btw (-30) 60 T) as Bs.
    { split; [apply By |]. apply Rle_trans with (1 := proj2 By). apply Rle_trans with (bpow radix2 20 * bpow radix2 33); [| rewrite <- bpow_plus; apply bpow_le; lia].
      apply Rmult_le_compat_r; [apply bpow_ge_0 |]. change (bpow radix2 20) with 1048576. lra. }
    assert (btw (-90) 63 ((b2r a + IZR c) / T)) as Bq by (apply (btw_div (-30) 33 (-30) 60); assumption).
    pose proof (near_div _ _ _ _ _ _ Na Ny ltac:(lra) ltac:(apply (btw_usual _ _ _ Bq); lia)) as Nq.
    destruct (near_log log2 _ _ _ G Nq ltac:(apply (btw_usual _ _ _ Bq); lia)) as [F H2].
    split; [exact (btw_pos _ _ _ Bq) |]. split; [exact F |]. apply Rabs_le. unfold tenk, log_band, e23 in *. lra.
  Qed.

  Lemma dpd_close dl (sh : dpd_shared binary32) (g : counter) v b t : ordinary (dp_alpha sh) -> ordinary b ->
    (if (v =? OTHER)%Z then b = dp_beta0 sh else dp_betas sh !! v = Some b) ->
    ctr_get_total g = Ok t -> (0 <= t < 2 ^ 31)%Z -> (0 <= ctr_get_count g v < 2 ^ 31)%Z ->
    exists s, dpd_score_value (N:=NB) dl sh g v = Ok s /\
      scores tenk ((b2r (dp_alpha sh) * b2r b + (if (v =? OTHER)%Z then 0 else IZR (ctr_get_count g v))) / (b2r (dp_alpha sh) + IZR t)) s.
  Proof.
    intros A Ob Hb Et Ht Hc. destruct (near_plus_count (dp_alpha sh) t A ltac:(lia)) as [Nt Bt]. destruct (ord_near _ A) as [Na Ba].
    assert (near 1 (b32_mult mode_NE (dp_alpha sh) b) (b2r (dp_alpha sh) * b2r b) /\ btw (-60) 60 (b2r (dp_alpha sh) * b2r b)) as [Nm Bm].
    { destruct (ord_near b Ob) as [Nb Bb]. pose proof (btw_mul _ _ _ _ _ _ Ba Bb) as B. split; [| exact B].
      replace 1 with (0 + 0 + 1) by ring. apply near_mul; try assumption; [lra |]. apply (btw_usual _ _ _ B); lia. }
    unfold dpd_score_value. cbn [nof nadd nmul ndiv nlog NB NumB]. rewrite Et.
    destruct (Z.eqb_spec v OTHER) as [Ev | Ev]; cbn [obind].
    - subst b. eexists. split; [reflexivity |]. rewrite Rplus_0_r.
      pose proof (btw_div _ _ _ _ _ _ Bm Bt) as Bq. eapply score_close; [exact G | apply near_div; [exact Nm | exact Nt | lra |] | | lra]; apply (btw_usual _ _ _ Bq); lia.
    - unfold sp_get, sp_find. rewrite Hb. cbn [obind].
      assert (btw (-60) 61 (b2r (dp_alpha sh) * b2r b + IZR (ctr_get_count g v))) as Bn.
      { apply (btw_add (-60) 60); [exact Bm |]. apply (btw_le 31); [apply btw_count; lia | lia]. }
      pose proof (near_count 1 _ _ (ctr_get_count g v) Nm ltac:(lra) ltac:(apply (btw_usual _ _ _ Bm); lia) ltac:(lia) ltac:(apply (btw_usual _ _ _ Bn); lia)) as Nn.
      pose proof (btw_div _ _ _ _ _ _ Bn Bt) as Bq.
      eexists. split; [reflexivity |]. eapply score_close; [exact G | apply near_div; [exact Nn | exact Nt | lra |] | | lra]; apply (btw_usual _ _ _ Bq); lia.
  Qed.
End S.
