(** Closed forms of the predictive probabilities. *)
From Coq Require Import Permutation Reals Lra.
From Verif.model Require Import Base Num NumR VectorMath Component Slave BB BNB GP NICH DD.
From Verif.spec Require Import GroupSpec GaussSpec LgammaSpec VectorSpec.
From Verif.proof Require Import BaseProof GroupProof BBProof CountsProof NICHProof DDProof LgammaProof ScoreProof DDScore DataProof.
Local Open Scope R_scope.

Lemma rsum_seq f n : rsum (map f (seq 0 n)) = sumf f n.
Proof.
  assert (G : forall k, rsum (map f (seq k n)) = sumf (fun i => f (k + i)%nat) n).
  { induction n as [|n IH]; intro k; [reflexivity|]. rewrite sumf_S_l. cbn [seq map rsum]. rewrite IH, Nat.add_0_r.
    f_equal. apply sumf_ext. intros i _. f_equal. lia. }
  rewrite G. reflexivity.
Qed.
Lemma rsum_rn l : sumf (rn l) (length l) = rsum l.
Proof.
  induction l as [|x l IH]; [reflexivity|]. cbn [length rsum]. rewrite sumf_S_l. cbn [rn nth]. f_equal. exact IH.
Qed.
Lemma tally_nonneg dim l : List.Forall (fun c => (0 <= c)%Z) (tally dim l).
Proof. unfold tally. rewrite Forall_forall. intros c H. apply in_map_iff in H. destruct H as (i & <- & _). lia. Qed.
Lemma Forall2_in_r {A B} (P : A -> B -> Prop) la lb : Forall2 P la lb -> forall b, In b lb -> exists a, P a b.
Proof. induction 1 as [|a b la lb H _ IH]; intros b' Hb; [destruct Hb|]. destruct Hb as [<-|Hb]; eauto. Qed.
Lemma Forall2_map_r {A B} (P : A -> B -> Prop) (f : A -> B) l : (forall a, In a l -> P a (f a)) -> Forall2 P l (map f l).
Proof. induction l as [|a l IH]; intro H; cbn [map]; constructor. - apply H; now left. - apply IH. intros; apply H; now right. Qed.
Lemma dd_filled_wf dl (sh : dd_shared R) data gs :
  Forall2 (fun (l : list Z) g => in_dim (dd_dim sh) l /\ c_filled (DD R) dl sh l = Ok g) data gs ->
  List.Forall (dd_wf (dd_dim sh)) gs.
Proof.
  intro H. rewrite Forall_forall. intros g Hg. apply (Forall2_in_r _ _ _ H) in Hg. destruct Hg as (l & Hl & E).
  rewrite (dd_filled dl sh l Hl) in E. injection E as <-. unfold dd_wf, dd_stat. cbn [dd_counts dd_count_sum].
  split; [apply tally_length|]. split; [symmetry; now apply zsum_tally|apply tally_nonneg].
Qed.

Lemma rising_pos x n : 0 < x -> 0 < rising x n.
Proof.
  intro H. induction n as [|n IH]; cbn [rising]; [lra|]. apply Rmult_lt_0_compat; auto. pose proof (pos_INR n). lra.
Qed.
Lemma exp_lg lg (Hlg : lgamma_like lg) x n : 0 < x -> exp (lg (x + INR n) - lg x) = rising x n.
Proof.
  intro H. induction n as [|n IH].
  - cbn [INR rising]. rewrite Rplus_0_r, Rminus_diag_eq by reflexivity. apply exp_0.
  - rewrite S_INR. cbn [rising]. rewrite <- IH. pose proof (pos_INR n).
    replace (x + (INR n + 1)) with (x + INR n + 1) by lra. rewrite (lg_succ lg Hlg) by lra.
    replace (ln (x + INR n) + lg (x + INR n) - lg x) with (lg (x + INR n) - lg x + ln (x + INR n)) by lra.
    rewrite exp_plus, exp_ln by lra. reflexivity.
Qed.

Lemma count_tf l : (count_occ Bool.bool_dec l true + count_occ Bool.bool_dec l false = length l)%nat.
Proof. induction l as [|[] l IH]; cbn [count_occ length]; cbn; lia. Qed.

Lemma bb_closed lg dl (sh : bb_shared R) (l : list bool) g (v : bool) :
  0 < bb_alpha sh -> 0 < bb_beta sh -> short l -> c_filled (BB R) dl sh l = Ok g ->
  exp (bb_score_value (N:=NumR lg) sh g v) =
  ((if v then bb_alpha sh else bb_beta sh) + INR (count_occ Bool.bool_dec l v)) /
  (bb_alpha sh + bb_beta sh + INR (length l)).
Proof.
  intros Ha Hb Hl Hg. rewrite (bb_filled dl sh l Hl) in Hg. injection Hg as <-.
  unfold bb_score_value, bb_scorer_init, bb_scorer_eval, bb_stat. cbn [bb_heads bb_tails].
  cbn [nof nadd nsub nmul ndiv nneg nlog nlgamma NumR]. rewrite <- !INR_IZR_INZ.
  rewrite <- (count_tf l), plus_INR.
  pose proof (pos_INR (count_occ Bool.bool_dec l true)). pose proof (pos_INR (count_occ Bool.bool_dec l false)).
  destruct v; cbn [fst snd]; rewrite exp_ln by (apply Rdiv_lt_0_compat; lra); f_equal; lra.
Qed.

Lemma dd_closed lg dl (sh : dd_shared R) (l : list Z) g v a :
  List.Forall (fun a => 0 < a) (dd_alphas sh) -> in_dim (dd_dim sh) l ->
  c_filled (DD R) dl sh l = Ok g -> nth_error (dd_alphas sh) v = Some a ->
  exists s, dd_score_value (N:=NumR lg) dl sh g (Z.of_nat v) = Ok s /\
    exp s = (a + INR (count_occ BinInt.Z.eq_dec l (Z.of_nat v))) / (rsum (dd_alphas sh) + INR (length l)).
Proof.
  intros Ha Hl Hg Hv. rewrite (dd_filled dl sh l Hl) in Hg. injection Hg as <-.
  assert (Hd : (v < dd_dim sh)%nat) by (apply nth_error_Some; congruence).
  eexists. split; [apply dd_score_value_eq; auto; cbn; apply tally_length|].
  rewrite sumf_plus. unfold dd_dim at 1. rewrite rsum_rn.
  rewrite (sumf_ext (cn (dd_stat (dd_dim sh) l)) (fun i => INR (count_occ BinInt.Z.eq_dec l (Z.of_nat i)))) by (intros; now apply cn_tally).
  rewrite sum_count by apply Hl. rewrite cn_tally by exact Hd. unfold rn. rewrite (nth_error_nth _ _ _ Hv).
  apply exp_ln.
  assert (0 < a) by (rewrite Forall_forall in Ha; apply Ha; eapply nth_error_In, Hv).
  pose proof (pos_INR (count_occ BinInt.Z.eq_dec l (Z.of_nat v))). pose proof (pos_INR (length l)).
  assert (0 < rsum (dd_alphas sh)).
  { rewrite <- rsum_rn. apply sumf_pos; [unfold dd_dim in Hd; lia|]. intros i Hi. rewrite Forall_forall in Ha. apply Ha, nth_In, Hi. }
  apply Rdiv_lt_0_compat; lra.
Qed.

Lemma gp_closed lg (Hlg : lgamma_like lg) dl (sh : gp_shared R) (l : list Z) g (v : nat) :
  0 < gp_alpha sh -> 0 < gp_inv_beta sh -> small_counts l ->
  c_filled (GP R (N:=NumR lg)) dl sh l = Ok g ->
  let r := gp_alpha sh + IZR (zsum l) in
  let b := gp_inv_beta sh + INR (length l) in
  exp (gp_score_value (N:=NumR lg) sh g (Z.of_nat v)) =
  rising r v / INR (fact v) * Rpower (b / (1 + b)) r * (1 / (1 + b)) ^ v.
Proof.
  intros Ha Hb Hl Hg. rewrite gp_filled in Hg. injection Hg as <-. destruct (small_u32 _ Hl) as [E1 E2].
  cbn zeta. unfold gp_score_value, gp_scorer_eval, gp_scorer_init, gp_plus_group, gp_stat.
  cbn [gp_count gp_sum gp_log_prod gp_alpha gp_inv_beta gps_score gps_post_alpha gps_coeff].
  cbn [nof nlit nadd nsub nmul ndiv nneg nlog nlgamma nlogfact NumR]. rewrite E1, E2, <- !INR_IZR_INZ, Nat2Z.id.
  assert (0 <= IZR (zsum l)) by (apply (IZR_le 0); apply zsum_nonneg, Hl).
  pose proof (pos_INR (length l)).
  set (r := gp_alpha sh + IZR (zsum l)). assert (0 < r) by (unfold r; lra).
  set (b := gp_inv_beta sh + INR (length l)). assert (0 < b) by (unfold b; lra).
  replace (1 / 1 + b) with (1 + b) by lra. rewrite ln_fact_eq.
  replace (- lg r + r * (ln b + - ln (1 + b)) + lg (r + INR v) - ln (INR (fact v)) + - ln (1 + b) * INR v)
    with ((lg (r + INR v) - lg r) + (- ln (INR (fact v)) + (r * ln (b / (1 + b)) + INR v * ln (1 / (1 + b)))))
    by (rewrite !ln_div by lra; rewrite ln_1; lra).
  rewrite !exp_plus, exp_lg by auto. rewrite exp_Ropp, exp_ln by apply INR_fact_lt_0.
  unfold Rpower. assert (0 < 1 / (1 + b)) by (apply Rdiv_lt_0_compat; lra).
  rewrite <- (Rpower_pow v (1 / (1 + b))) by assumption. unfold Rpower, Rdiv. lra.
Qed.

Lemma bnb_closed lg (Hlg : lgamma_like lg) dl (sh : bnb_shared R) (l : list Z) g (v r : nat) :
  0 < bnb_alpha sh -> 0 < bnb_beta sh -> bnb_r sh = Z.of_nat r -> small_counts l ->
  c_filled (BNB R) dl sh l = Ok g ->
  let a := bnb_alpha sh + INR r * INR (length l) in
  let b := bnb_beta sh + IZR (zsum l) in
  exp (bnb_score_value (N:=NumR lg) sh g (Z.of_nat v)) = rising a r * rising b v / rising (a + b) (r + v).
Proof.
  intros Ha Hb Hr Hl Hg. rewrite bnb_filled in Hg. injection Hg as <-. destruct (small_u32 _ Hl) as [E1 E2].
  cbn zeta. unfold bnb_score_value, bnb_plus_group, bnb_stat.
  cbn [bnb_count bnb_sum bnb_alpha bnb_beta bnb_r]. rewrite Hr, E1, E2.
  cbn [nof nadd nsub nmul ndiv nneg nlog nlgamma NumR]. rewrite <- !INR_IZR_INZ.
  assert (0 <= IZR (zsum l)) by (apply (IZR_le 0); apply zsum_nonneg, Hl).
  pose proof (Rmult_le_pos _ _ (pos_INR r) (pos_INR (length l))).
  set (a := bnb_alpha sh + INR r * INR (length l)). assert (0 < a) by (unfold a; lra).
  set (b := bnb_beta sh + IZR (zsum l)). assert (0 < b) by (unfold b; lra).
  replace (a + INR r + (b + INR v)) with (a + b + INR (r + v)) by (rewrite plus_INR; lra).
  replace (lg (a + b) - lg (a + b + INR (r + v)) + (lg (a + INR r) - lg a) + (lg (b + INR v) - lg b))
    with ((lg (a + INR r) - lg a) + (lg (b + INR v) - lg b) + - (lg (a + b + INR (r + v)) - lg (a + b))) by lra.
  rewrite !exp_plus, exp_Ropp, !exp_lg by (auto; lra). reflexivity.
Qed.
