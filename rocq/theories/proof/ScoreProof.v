(** Exact-arithmetic identities of the scores: BB, BNB, GP, NICH. *)
From Coq Require Import Permutation Reals Lra.
From Verif.model Require Import Base Num NumR Component BB BNB GP NICH.
From Verif.spec Require Import GroupSpec GaussSpec LgammaSpec.
From Verif.proof Require Import BaseProof GroupProof BBProof CountsProof NICHProof LgammaProof.
Local Open Scope R_scope.

Lemma IZRn_nonneg n : 0 <= IZR (Z.of_nat n).
Proof. apply (IZR_le 0). lia. Qed.
Lemma IZRS n : IZR (Z.of_nat (S n)) = IZR (Z.of_nat n) + 1.
Proof. rewrite Nat2Z.inj_succ. apply succ_IZR. Qed.

(** BB *)
Lemma bb_step lg (Hlg : lgamma_like lg) (sh : bb_shared R) k v : 0 < bb_alpha sh -> 0 < bb_beta sh ->
  bb_score_value (N:=NumR lg) sh (bb_stat k) v =
  bb_score_data (N:=NumR lg) sh (bb_stat (v :: k)) - bb_score_data (N:=NumR lg) sh (bb_stat k).
Proof.
  intros Ha Hb. unfold bb_score_value, bb_scorer_init, bb_scorer_eval, bb_score_data, bb_stat.
  pose proof (IZRn_nonneg (count_occ Bool.bool_dec k true)) as A.
  pose proof (IZRn_nonneg (count_occ Bool.bool_dec k false)) as B.
  destruct v; cbn [bb_heads bb_tails count_occ Bool.bool_dec bool_rec bool_rect fst snd];
    cbn [nof nadd nsub nmul ndiv nneg nlog nlgamma NumR]; rewrite IZRS.
  - set (h := IZR (Z.of_nat (count_occ Bool.bool_dec k true))) in *.
    set (t := IZR (Z.of_nat (count_occ Bool.bool_dec k false))) in *.
    replace (bb_alpha sh + (h + 1)) with (bb_alpha sh + h + 1) by lra.
    replace (bb_alpha sh + h + 1 + (bb_beta sh + t)) with (bb_alpha sh + h + (bb_beta sh + t) + 1) by lra.
    rewrite !(lg_succ lg Hlg) by lra. rewrite ln_div by lra. lra.
  - set (h := IZR (Z.of_nat (count_occ Bool.bool_dec k true))) in *.
    set (t := IZR (Z.of_nat (count_occ Bool.bool_dec k false))) in *.
    replace (bb_beta sh + (t + 1)) with (bb_beta sh + t + 1) by lra.
    replace (bb_alpha sh + h + (bb_beta sh + t + 1)) with (bb_alpha sh + h + (bb_beta sh + t) + 1) by lra.
    rewrite !(lg_succ lg Hlg) by lra. rewrite ln_div by lra. lra.
Qed.
Lemma bb_sd_empty lg (sh : bb_shared R) : bb_score_data (N:=NumR lg) sh (bb_init sh) = 0.
Proof. unfold bb_score_data, bb_init. cbn. rewrite !Rplus_0_r. lra. Qed.

Lemma bb_chain lg (Hlg : lgamma_like lg) dl (sh : bb_shared R) l : 0 < bb_alpha sh -> 0 < bb_beta sh -> short l ->
  c_chain (BB R) dl sh 0 Rplus (fun sh g v => Ok (bb_score_value (N:=NumR lg) sh g v)) (c_init (BB R) sh) l =
  Ok (bb_score_data (N:=NumR lg) sh (bb_stat l)).
Proof.
  intros Ha Hb Hl.
  rewrite (chain_stat (BB R) dl sh bb_stat short bb_stat_perm short_perm short_tail
             (bb_add_stat dl sh) _ (bb_score_data (N:=NumR lg) sh)) with (k := []).
  - rewrite app_nil_r. change (bb_stat []) with (bb_init sh). rewrite bb_sd_empty. f_equal. lra.
  - intros k v _. f_equal. now apply bb_step.
  - now rewrite app_nil_r.
Qed.

Lemma bb_norm lg (sh : bb_shared R) g : 0 < bb_alpha sh -> 0 < bb_beta sh -> (0 <= bb_heads g)%Z -> (0 <= bb_tails g)%Z ->
  exp (bb_score_value (N:=NumR lg) sh g true) + exp (bb_score_value (N:=NumR lg) sh g false) = 1.
Proof.
  intros Ha Hb Hh Ht. apply IZR_le in Hh, Ht. unfold bb_score_value, bb_scorer_init, bb_scorer_eval.
  cbn [fst snd nof nadd nsub nmul ndiv nneg nlog nlgamma NumR].
  rewrite !exp_ln by (apply Rdiv_lt_0_compat; lra). field. lra.
Qed.

Lemma zsum_nonneg l : List.Forall (fun v => (0 <= v)%Z) l -> (0 <= zsum l)%Z.
Proof. induction 1; cbn [zsum]; lia. Qed.
Lemma small_counts_perm l l' : Permutation l l' -> small_counts l -> small_counts l'.
Proof.
  intros P (A & B & C). rewrite (Permutation_length P) in A. rewrite (zsum_perm _ _ P) in C.
  repeat split; auto. eapply Permutation_Forall; eauto.
Qed.
Lemma small_counts_tail v l : small_counts (v :: l) -> small_counts l.
Proof.
  intros (A & B & C). cbn [length zsum] in *. inversion B; subst. repeat split; auto; lia.
Qed.
Lemma small_u32 l : small_counts l -> u32 (Z.of_nat (length l)) = Z.of_nat (length l) /\ u32 (zsum l) = zsum l.
Proof. intros (A & B & C). apply zsum_nonneg in B. split; apply u32_small; lia. Qed.

(** BNB *)
Lemma bnb_step lg (sh : bnb_shared R) k v : small_counts (v :: k) ->
  bnb_score_value (N:=NumR lg) sh (bnb_stat k) v =
  bnb_score_data (N:=NumR lg) sh (bnb_stat (v :: k)) - bnb_score_data (N:=NumR lg) sh (bnb_stat k).
Proof.
  intro H. destruct (small_u32 _ H) as [E1 E2]. destruct (small_u32 _ (small_counts_tail _ _ H)) as [E3 E4].
  unfold bnb_score_value, bnb_score_data, bnb_plus_group, bnb_stat. rewrite E1, E2, E3, E4.
  cbn [length zsum bnb_count bnb_sum bnb_alpha bnb_beta bnb_r]. cbn [nof nadd nsub nmul ndiv nneg nlog nlgamma NumR].
  rewrite IZRS, plus_IZR.
  replace (bnb_alpha sh + IZR (bnb_r sh) * (IZR (Z.of_nat (length k)) + 1))
    with (bnb_alpha sh + IZR (bnb_r sh) * IZR (Z.of_nat (length k)) + IZR (bnb_r sh)) by lra.
  replace (bnb_beta sh + (IZR v + IZR (zsum k))) with (bnb_beta sh + IZR (zsum k) + IZR v) by lra.
  lra.
Qed.
Lemma bnb_sd_empty lg (sh : bnb_shared R) : bnb_score_data (N:=NumR lg) sh (bnb_init sh) = 0.
Proof. unfold bnb_score_data, bnb_init, bnb_plus_group. cbn. rewrite Rmult_0_r, !Rplus_0_r. lra. Qed.
Lemma bnb_chain lg dl (sh : bnb_shared R) l : small_counts l ->
  c_chain (BNB R) dl sh 0 Rplus (fun sh g v => Ok (bnb_score_value (N:=NumR lg) sh g v)) (c_init (BNB R) sh) l =
  Ok (bnb_score_data (N:=NumR lg) sh (bnb_stat l)).
Proof.
  intros Hl.
  rewrite (chain_stat (BNB R) dl sh bnb_stat small_counts bnb_stat_perm small_counts_perm small_counts_tail
             (fun l v _ => bnb_add_stat dl sh l v) _ (bnb_score_data (N:=NumR lg) sh)) with (k := []).
  - rewrite app_nil_r. change (bnb_stat []) with (bnb_init sh). rewrite bnb_sd_empty. f_equal. lra.
  - intros k v Hk. f_equal. now apply bnb_step.
  - now rewrite app_nil_r.
Qed.
Lemma bnb_scorer_agrees lg (sh : bnb_shared R) g v :
  bnb_scorer_eval (N:=NumR lg) (bnb_scorer_init (N:=NumR lg) sh g) v = bnb_score_value (N:=NumR lg) sh g v.
Proof.
  unfold bnb_scorer_eval, bnb_scorer_init, bnb_score_value. cbn [bns_score bns_post_beta bns_alpha].
  cbn [nof nadd nsub nmul ndiv nneg nlog nlgamma NumR]. lra.
Qed.

(** GP *)
Lemma gp_step lg (sh : gp_shared R) k v : small_counts (v :: k) ->
  gp_score_value (N:=NumR lg) sh (gp_stat k) v =
  gp_score_data (N:=NumR lg) sh (gp_stat (v :: k)) - gp_score_data (N:=NumR lg) sh (gp_stat k).
Proof.
  intro H. destruct (small_u32 _ H) as [E1 E2]. destruct (small_u32 _ (small_counts_tail _ _ H)) as [E3 E4].
  unfold gp_score_value, gp_scorer_eval, gp_scorer_init, gp_score_data, gp_plus_group, gp_stat. rewrite E1, E2, E3, E4.
  cbn [length zsum sum_ln_fact gp_count gp_sum gp_log_prod gp_alpha gp_inv_beta gps_score gps_post_alpha gps_coeff].
  cbn [nof nlit nadd nsub nmul ndiv nneg nlog nlgamma nlogfact NumR].
  rewrite IZRS, plus_IZR. unfold Rdiv. rewrite Rinv_1, Rmult_1_r.
  replace (1 + (gp_inv_beta sh + IZR (Z.of_nat (length k)))) with (gp_inv_beta sh + (IZR (Z.of_nat (length k)) + 1)) by lra.
  replace (gp_alpha sh + (IZR v + IZR (zsum k))) with (gp_alpha sh + IZR (zsum k) + IZR v) by lra.
  lra.
Qed.
Lemma gp_sd_empty lg (sh : gp_shared R) : gp_score_data (N:=NumR lg) sh (gp_init (N:=NumR lg) sh) = 0.
Proof. unfold gp_score_data, gp_init, gp_plus_group. cbn. rewrite !Rplus_0_r. lra. Qed.
Lemma gp_chain lg dl (sh : gp_shared R) l : small_counts l ->
  c_chain (GP R (N:=NumR lg)) dl sh 0 Rplus (fun sh g v => Ok (gp_score_value (N:=NumR lg) sh g v)) (c_init (GP R (N:=NumR lg)) sh) l =
  Ok (gp_score_data (N:=NumR lg) sh (gp_stat l)).
Proof.
  intros Hl.
  rewrite (chain_stat (GP R (N:=NumR lg)) dl sh gp_stat small_counts gp_stat_perm small_counts_perm small_counts_tail
             (fun l v _ => gp_add_stat lg dl sh l v) _ (gp_score_data (N:=NumR lg) sh)) with (k := []).
  - rewrite app_nil_r. change (gp_stat []) with (gp_init (N:=NumR lg) sh). rewrite gp_sd_empty. f_equal. lra.
  - intros k v Hk. f_equal. now apply gp_step.
  - now rewrite app_nil_r.
Qed.

(** Conjugacy *)
Lemma gp_plus_plus lg (sh : gp_shared R) xs ys : small_counts (xs ++ ys) ->
  gp_plus_group (N:=NumR lg) sh (gp_stat (xs ++ ys)) =
  gp_plus_group (N:=NumR lg) (gp_plus_group (N:=NumR lg) sh (gp_stat xs)) (gp_stat ys).
Proof.
  intro H. destruct (small_u32 _ H) as [E1 E2].
  assert (Hy : small_counts ys).
  { clear - H. induction xs; auto. apply IHxs. eapply small_counts_tail, H. }
  assert (Hx : small_counts xs).
  { apply (small_counts_perm _ (ys ++ xs)) in H; [|apply Permutation_app_comm].
    clear - H. induction ys; auto. apply IHys. eapply small_counts_tail, H. }
  destruct (small_u32 _ Hx) as [E3 E4]. destruct (small_u32 _ Hy) as [E5 E6].
  unfold gp_plus_group, gp_stat. rewrite E1, E2, E3, E4, E5, E6.
  cbn [gp_count gp_sum gp_alpha gp_inv_beta]. cbn [nof nadd NumR].
  rewrite app_length, Nat2Z.inj_add, zsum_app, !plus_IZR. f_equal; lra.
Qed.
Lemma bnb_plus_plus lg (sh : bnb_shared R) xs ys : small_counts (xs ++ ys) ->
  bnb_plus_group (N:=NumR lg) sh (bnb_stat (xs ++ ys)) =
  bnb_plus_group (N:=NumR lg) (bnb_plus_group (N:=NumR lg) sh (bnb_stat xs)) (bnb_stat ys).
Proof.
  intro H. destruct (small_u32 _ H) as [E1 E2].
  assert (Hy : small_counts ys).
  { clear - H. induction xs; auto. apply IHxs. eapply small_counts_tail, H. }
  assert (Hx : small_counts xs).
  { apply (small_counts_perm _ (ys ++ xs)) in H; [|apply Permutation_app_comm].
    clear - H. induction ys; auto. apply IHys. eapply small_counts_tail, H. }
  destruct (small_u32 _ Hx) as [E3 E4]. destruct (small_u32 _ Hy) as [E5 E6].
  unfold bnb_plus_group, bnb_stat. rewrite E1, E2, E3, E4, E5, E6.
  cbn [bnb_count bnb_sum bnb_alpha bnb_beta bnb_r]. cbn [nof nadd nmul NumR].
  rewrite app_length, Nat2Z.inj_add, zsum_app, !plus_IZR. f_equal; lra.
Qed.

(** NICH: the posterior in terms of sums. *)
Lemma nich_post lg (sh : nich_shared R) l : 0 < ni_kappa sh -> 0 < ni_nu sh ->
  nich_plus_group (N:=NumR lg) sh (nich_stat l) =
  let n := INR (length l) in
  let k := ni_kappa sh in
  mk_nich_shared ((k * ni_mu sh + rsum l) / (k + n)) (k + n)
    ((ni_nu sh * ni_sigmasq sh + rsq l + k * (ni_mu sh)² - (k * ni_mu sh + rsum l)² / (k + n)) / (ni_nu sh + n))
    (ni_nu sh + n).
Proof.
  intros Hk Hn. unfold nich_plus_group, nich_stat. cbn [ni_count ni_mean ni_ctv]. cbn [nof nlit nadd nsub nmul ndiv NumR].
  rewrite <- INR_IZR_INZ.
  destruct l as [|x l].
  - cbn [length INR]. replace (rmean []) with 0 by reflexivity. rewrite ssd_nil. unfold rsq. cbn [map rsum].
    f_equal; try (unfold Rsqr; field; lra).
  - pose proof (len_pos (x :: l) ltac:(discriminate)) as P.
    rewrite ssd_alt, rmean_eq by discriminate.
    set (n := INR (length (x :: l))) in *. set (s := rsum (x :: l)). set (q := rsq (x :: l)).
    cbn zeta. f_equal; try (unfold Rsqr; field; lra).
Qed.

Lemma rsq_app a b : rsq (a ++ b) = rsq a + rsq b.
Proof. unfold rsq. now rewrite map_app, rsum_app. Qed.

Lemma nich_plus_plus lg (sh : nich_shared R) xs ys : 0 < ni_kappa sh -> 0 < ni_nu sh ->
  nich_plus_group (N:=NumR lg) sh (nich_stat (xs ++ ys)) =
  nich_plus_group (N:=NumR lg) (nich_plus_group (N:=NumR lg) sh (nich_stat xs)) (nich_stat ys).
Proof.
  intros Hk Hn. pose proof (pos_INR (length xs)) as Px. pose proof (pos_INR (length ys)) as Py.
  rewrite (nich_post lg sh xs Hk Hn), (nich_post lg sh (xs ++ ys) Hk Hn). rewrite nich_post by (cbn; lra).
  cbn zeta. cbn [ni_mu ni_kappa ni_sigmasq ni_nu]. rewrite app_length, plus_INR, rsum_app, rsq_app.
  f_equal; try (unfold Rsqr; field; lra).
Qed.

(** The excess of the literals: log_pi is not exactly the logarithm of M_PIf. *)
Definition pi_gap : R := / 2 * (11447298858493991 / 10000000000000000 - ln (314159265358979 / 100000000000000)).

Lemma rsum_nonneg l : List.Forall (fun x => 0 <= x) l -> 0 <= rsum l.
Proof. induction 1; cbn [rsum]; lra. Qed.
Lemma ssd_nonneg l : 0 <= ssd l.
Proof. unfold ssd. apply rsum_nonneg. rewrite Forall_forall. intros y Hy. apply in_map_iff in Hy. destruct Hy as (x & <- & _). apply Rle_0_sqr. Qed.

Lemma nich_post_sigmasq_pos lg (sh : nich_shared R) l : 0 < ni_kappa sh -> 0 < ni_nu sh -> 0 < ni_sigmasq sh ->
  0 < ni_sigmasq (nich_plus_group (N:=NumR lg) sh (nich_stat l)).
Proof.
  intros Hk Hn Hs. unfold nich_plus_group, nich_stat. cbn [ni_count ni_mean ni_ctv ni_sigmasq].
  cbn [nof nlit nadd nsub nmul ndiv NumR].
  pose proof (ssd_nonneg l) as P. pose proof (IZRn_nonneg (length l)) as Q.
  assert (0 <= IZR (Z.of_nat (length l)) * ni_kappa sh * (ni_mu sh - rmean l) * (ni_mu sh - rmean l)
             / (ni_kappa sh + IZR (Z.of_nat (length l)))).
  { apply Rmult_le_pos; [|left; apply Rinv_0_lt_compat; lra].
    rewrite Rmult_assoc. apply Rmult_le_pos; [apply Rmult_le_pos; lra|]. apply Rle_0_sqr. }
  assert (0 < ni_nu sh * ni_sigmasq sh) by (apply Rmult_lt_0_compat; lra).
  apply Rmult_lt_0_compat; [|lra]. apply Rdiv_lt_0_compat; lra.
Qed.

(** one step for a posterior *)
Lemma nich_step lg (sh : nich_shared R) k v : 0 < ni_kappa sh -> 0 < ni_nu sh -> 0 < ni_sigmasq sh ->
  nich_score_value (N:=NumR lg) sh (nich_stat k) v =
  nich_score_data (N:=NumR lg) sh (nich_stat (v :: k)) - nich_score_data (N:=NumR lg) sh (nich_stat k) + pi_gap.
Proof.
  intros Hk Hn Hs.
  pose proof (nich_post_sigmasq_pos lg sh k Hk Hn Hs) as Ps.
  unfold nich_score_value, nich_scorer_eval, nich_scorer_init, nich_score_data, half, sqr, m_pif, log_pi_lit.
  rewrite (nich_stat_perm (v :: k) (k ++ [v])) by apply Permutation_cons_append.
  rewrite (nich_plus_plus lg sh k [v] Hk Hn).
  replace (ni_count (nich_stat (k ++ [v]))) with (Z.of_nat (S (length k)))
    by (unfold nich_stat; cbn [ni_count]; rewrite app_length; cbn [length]; f_equal; lia).
  assert (Hpk : 0 < ni_kappa (nich_plus_group (N:=NumR lg) sh (nich_stat k)) /\ 0 < ni_nu (nich_plus_group (N:=NumR lg) sh (nich_stat k))).
  { rewrite nich_post by assumption. cbn. pose proof (pos_INR (length k)). lra. }
  set (p := nich_plus_group (N:=NumR lg) sh (nich_stat k)) in *. destruct Hpk as [Hpk Hpn].
  replace (nich_plus_group (N:=NumR lg) p (nich_stat [v])) with
    (mk_nich_shared ((ni_kappa p * ni_mu p + v) / (ni_kappa p + 1)) (ni_kappa p + 1)
       ((ni_nu p * ni_sigmasq p + ni_kappa p / (ni_kappa p + 1) * (v - ni_mu p)²) / (ni_nu p + 1)) (ni_nu p + 1)).
  2:{ rewrite nich_post by assumption. cbn zeta. unfold rsq. cbn [map rsum length INR]. f_equal; unfold Rsqr; field; lra. }
  cbn [ni_mu ni_kappa ni_sigmasq ni_nu nis_score nis_coeff nis_prec nis_mean ni_count nich_stat].
  cbn [nof nlit nadd nsub nmul ndiv nneg nlog nlgamma nlgamma_nu NumR].
  rewrite IZRS. unfold pi_gap.
  generalize dependent p. intros p Ps Hpk Hpn. destruct p as [mu ka s2 nu]. cbn [ni_mu ni_kappa ni_sigmasq ni_nu] in *.
  assert (Q : 0 < nu * s2) by (apply Rmult_lt_0_compat; lra).
  assert (T : 0 <= (v - mu)²) by apply Rle_0_sqr. unfold Rsqr in *.
  assert (U : 0 <= ka / (ka + 1) * ((v - mu) * (v - mu))).
  { apply Rmult_le_pos; [left; apply Rdiv_lt_0_compat; lra|exact T]. }
  replace (1 / 1 + ka / ((ka + 1 / 1) * s2) / nu * ((v - mu) * (v - mu)))
    with ((nu * s2 + ka / (ka + 1) * ((v - mu) * (v - mu))) / (nu * s2)) by (field; lra).
  replace ((nu + 1) * ((nu * s2 + ka / (ka + 1) * ((v - mu) * (v - mu))) / (nu + 1)))
    with (nu * s2 + ka / (ka + 1) * ((v - mu) * (v - mu))) by (field; lra).
  set (w := ka / (ka + 1) * ((v - mu) * (v - mu))) in *. set (q := nu * s2) in *.
  set (c := 314159265358979 / 100000000000000). assert (Hc : 0 < c) by (unfold c; lra).
  replace (ka / ((ka + 1 / 1) * s2) / (c * nu)) with (ka / (ka + 1) / (c * q)) by (unfold q; field; repeat split; lra).
  assert (Hcq : 0 < c * q) by (apply Rmult_lt_0_compat; lra).
  rewrite (ln_div (q + w) q) by lra.
  rewrite (ln_div (ka / (ka + 1)) (c * q)) by (try apply Rdiv_lt_0_compat; lra).
  rewrite (ln_div ka (ka + 1)) by lra. rewrite (ln_mult c q) by lra.
  rewrite (ln_div (ni_kappa sh) (ka + 1)), (ln_div (ni_kappa sh) ka) by lra.
  replace (nu / 2 + / 2) with (1 / 2 * (nu + 1)) by lra. replace (nu / 2) with (1 / 2 * nu) by lra.
  lra.
Qed.
Lemma nich_sd_empty lg (sh : nich_shared R) : 0 < ni_kappa sh -> 0 < ni_nu sh ->
  nich_score_data (N:=NumR lg) sh (nich_stat []) = 0.
Proof.
  intros Hk Hn. unfold nich_score_data. rewrite nich_post by assumption. cbn zeta. unfold half, log_pi_lit, rsq.
  cbn [length INR map rsum nich_stat ni_count ni_mu ni_kappa ni_sigmasq ni_nu].
  cbn [nof nlit nadd nsub nmul ndiv nneg nlog nlgamma nlgamma_nu NumR]. rewrite !Rplus_0_r.
  replace ((ni_nu sh * ni_sigmasq sh + ni_kappa sh * (ni_mu sh)² - (ni_kappa sh * ni_mu sh)² / ni_kappa sh) / ni_nu sh)
    with (ni_sigmasq sh) by (unfold Rsqr; field; lra).
  unfold Rdiv at 4. rewrite Rinv_r by lra. rewrite ln_1. change (Z.of_nat 0) with 0%Z. lra.
Qed.
Lemma nich_chain lg dl (sh : nich_shared R) (l : list R) : 0 < ni_kappa sh -> 0 < ni_nu sh -> 0 < ni_sigmasq sh -> short l ->
  c_chain (NICH R (N:=NumR lg)) dl sh 0 Rplus (fun sh g v => Ok (nich_score_value (N:=NumR lg) sh g v))
    (c_init (NICH R (N:=NumR lg)) sh) l =
  Ok (nich_score_data (N:=NumR lg) sh (nich_stat l) + INR (length l) * pi_gap).
Proof.
  intros Hk Hn Hs Hl. rewrite nich_init_stat.
  assert (E : forall (k : list R) (v : R), nich_score_value (N:=NumR lg) sh (nich_stat k) v =
    nich_score_data (N:=NumR lg) sh (nich_stat (v :: k)) + IZR (ni_count (nich_stat (v :: k))) * pi_gap
    - (nich_score_data (N:=NumR lg) sh (nich_stat k) + IZR (ni_count (nich_stat k)) * pi_gap)).
  { intros k v. rewrite nich_step by assumption. cbn [nich_stat ni_count length]. rewrite IZRS. lra. }
  rewrite (chain_stat (NICH R (N:=NumR lg)) dl sh nich_stat short nich_stat_perm short_perm short_tail
             (nich_add_stat lg dl sh) _
             (fun g => nich_score_data (N:=NumR lg) sh g + IZR (ni_count g) * pi_gap)) with (k := []).
  - rewrite app_nil_r. rewrite nich_sd_empty by assumption. cbn [nich_stat ni_count length].
    f_equal. rewrite INR_IZR_INZ. change (Z.of_nat 0) with 0%Z. lra.
  - intros k v _. f_equal. apply E.
  - now rewrite app_nil_r.
Qed.
