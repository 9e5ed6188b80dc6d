(** C84: values drawn from a group's sampler have the probabilities its scores state.  C85: the same for the
    densities of NormalInverseChiSq.  Scores and draws in exact arithmetic ([NumR lg]); the draws of the standard
    library's gamma, uniform, poisson, negative_binomial and normal distributions are taken to have their laws.
    lg is the logarithm of the gamma function, here either a function with its recurrence ([lgamma_like]) or Euler's
    integral itself ([is_log_gamma]). *)
From Coq Require Import List Reals Lra Lia Permutation.
From Coquelicot Require Import Coquelicot.
From Verif.spec Require Import DrawSpec LgammaSpec GroupSpec GaussSpec.
From Verif.model Require Import Base Num NumR Component BB DD BNB GP NICH Random Slave Sparse DPD GroupSampler.
From Verif.proof Require Import BaseProof GroupProof LgammaProof NICHProof DDScore ScoreProof DrawProof DrawDD GammaFunction DrawCount DrawNormal PiBound.
From stdpp Require Import gmap.
From Verif.proof Require Import MapSum DPDProof DPDScore DrawDPD.
Local Open Scope R_scope.

Local Lemma some_inj {A} (x y : A) : Some x = Some y -> x = y.
Proof. congruence. Qed.

(** ** Beta-Bernoulli *)
Theorem C84_bb_draws : forall lg dl (sh : bb_shared R) (g : bb_group), let N := NumR lg in
  0 < bb_alpha sh + IZR (bb_heads g) -> 0 < bb_beta sh + IZR (bb_tails g) ->
  draws_follow [bb_alpha sh + IZR (bb_heads g); bb_beta sh + IZR (bb_tails g)]
    (fun gam u v => bb_sample_value gam u sh g = Ok v)
    (predicted (fun g v s => bb_score_value sh g v = s) (fun g v g' => bb_add dl sh g v = Ok g') g).
Proof.
  intros lg dl sh g N H1 H2. destruct (bb_draws lg dl sh g) as (p & P1 & P2); [repeat constructor; assumption |].
  exists p. split; [| exact P2]. intros gam HG v. destruct (P1 gam HG v) as (a & Q1 & Q2 & Q3 & Q4).
  exists a. split; [exact Q1 |]. split; [exact Q2 |]. split; [exact Q3 |]. intros u Hu. rewrite <- Q4 by exact Hu. unfold bb_sample_value.
  fold N. destruct (bb_sampler_init (N:=N) gam sh g) as [s| |]; cbn [obind].
  - split; [intros E; apply ok_inj in E; eauto |]. intros (s' & E & E2). apply ok_inj in E. now subst.
  - split; [discriminate | intros (s' & E & _); discriminate].
  - split; [discriminate | intros (s' & E & _); discriminate].
Qed.
Print Assumptions C84_bb_draws.
Example C84_bb_case : forall lg, let N := NumR lg in let sh := mk_bb_shared (1 / 2) 2 in let g := mk_bb 3 1 in
  (0 < bb_alpha sh + IZR (bb_heads g) /\ 0 < bb_beta sh + IZR (bb_tails g)) /\
  exists r, predicted (fun g v s => bb_score_value sh g v = s) (fun g v g' => bb_add 0 sh g v = Ok g') g [true; false; true] r.
Proof.
  intros lg N sh g. split; [unfold sh, g; cbn [bb_alpha bb_beta bb_heads bb_tails]; lra |].
  eexists. eapply predicted_cons; [reflexivity | reflexivity |]. eapply predicted_cons; [reflexivity | reflexivity |]. eapply predicted_last; reflexivity.
Qed.

(** ** Dirichlet-discrete *)
Theorem C84_dd_draws : forall lg dl (sh : dd_shared R) (g : dd_group) shapes, let N := NumR lg in
  dd_alphas sh <> [] -> length (dd_counts g) = dd_dim sh -> length shapes = dd_dim sh ->
  (forall i a c, nth_error (dd_alphas sh) i = Some a -> nth_error (dd_counts g) i = Some c ->
     nth_error shapes i = Some (a + IZR c) /\ 0 < a + IZR c) ->
  draws_follow shapes
    (fun gam u v => dd_sample_value gam u sh g = Ok v)
    (predicted (fun g v s => dd_score_value dl sh g v = Ok s) (fun g v g' => dd_add dl sh g v = Ok g') g).
Proof.
  intros lg dl sh g shapes N Hne HL HS HI.
  assert (forall i, (i < dd_dim sh)%nat -> nth_error shapes i = Some (rn (dd_alphas sh) i + cn g i) /\ 0 < rn (dd_alphas sh) i + cn g i) as HI'.
  { intros i Hi. destruct (nth_error (dd_alphas sh) i) as [a|] eqn:E1; [| apply nth_error_None in E1; unfold dd_dim in Hi; lia].
    destruct (nth_error (dd_counts g) i) as [c|] eqn:E2; [| apply nth_error_None in E2; lia].
    destruct (HI i a c E1 E2) as [E3 P]. unfold rn, cn. rewrite (nth_error_nth _ _ _ E1), (nth_error_nth _ _ _ E2). now split. }
  assert (shapes = dd_shapes sh g) as ->.
  { apply list_ext; [now rewrite dd_shapes_length |]. intros i Hi. rewrite HS in Hi. destruct (HI' i Hi) as [E _].
    rewrite (nth_error_nth _ _ 0 E). unfold dd_shapes. rewrite (nth_indep _ 0 (rn (dd_alphas sh) 0 + cn g 0)) by (rewrite map_length, seq_length; exact Hi).
    rewrite (map_nth (fun i => rn (dd_alphas sh) i + cn g i)). now rewrite seq_nth. }
  destruct (dd_draws lg dl sh g) as (p & P1 & P2).
  - unfold dd_dim. destruct (dd_alphas sh); [congruence | cbn; lia].
  - exact HL.
  - apply List.Forall_forall. intros x Hx. unfold dd_shapes in Hx. apply in_map_iff in Hx. destruct Hx as (i & <- & Hi). apply in_seq in Hi. apply HI'. lia.
  - exists p. split; [| exact P2]. intros gam HG v. destruct (P1 gam HG v) as (a & Q1 & Q2 & Q3 & Q4).
    exists a. split; [exact Q1 |]. split; [exact Q2 |]. split; [exact Q3 |]. intros u Hu. rewrite <- Q4 by exact Hu. unfold dd_sample_value.
    fold N. destruct (dd_sampler_init (N:=N) gam sh g) as [s| |]; cbn [obind].
    + split; [eauto |]. intros (s' & E & E2). apply ok_inj in E. now subst.
    + split; [discriminate | intros (s' & E & _); discriminate].
    + split; [discriminate | intros (s' & E & _); discriminate].
Qed.
Print Assumptions C84_dd_draws.
Example C84_dd_case : forall lg, let N := NumR lg in let sh := mk_dd_shared [1 / 2; 1; 3] in let g := mk_dd [2; 0; 1]%Z 3 in
  dd_alphas sh <> [] /\ length (dd_counts g) = dd_dim sh /\
  (forall i a c, nth_error (dd_alphas sh) i = Some a -> nth_error (dd_counts g) i = Some c ->
     nth_error [1 / 2 + 2; 1 + 0; 3 + 1] i = Some (a + IZR c) /\ 0 < a + IZR c) /\
  exists r, predicted (fun g v s => dd_score_value 0 sh g v = Ok s) (fun g v g' => dd_add 0 sh g v = Ok g') g [1; 0]%Z r.
Proof.
  intros lg N sh g. split; [discriminate |]. split; [reflexivity |]. split.
  - intros i a c. destruct i as [|[|[|i]]]; cbn; intros E1 E2; [| | | destruct i; discriminate];
      apply some_inj in E1; apply some_inj in E2; subst; (split; [reflexivity | lra]).
  - eexists. eapply predicted_cons; [reflexivity | reflexivity |]. eapply predicted_last; reflexivity.
Qed.

(** ** Dirichlet-process-discrete: groups holding the data l; the sampler visits the map of betas in any order.  The
    value OTHER stands for everything unlisted; it can be drawn but not added. *)
Theorem C84_dpd_draws : forall lg dl (sh : dpd_shared R) (order : list (Z * R)) l g, let N := NumR lg in
  0 < dp_alpha sh -> (forall v b, dp_betas sh !! v = Some b -> 0 < b) -> 0 <= dp_beta0 sh ->
  dp_beta0 sh + msum (fun _ b => b) (dp_betas sh) = 1 -> dp_betas sh !! OTHER = None ->
  Permutation order (map_to_list (dp_betas sh)) ->
  drawn_from (fun v => v <> OTHER /\ dp_betas sh !! v <> None) l -> c_filled (DPD R) dl sh l = Ok g ->
  forall tail, (0 < dp_beta0 sh /\ tail = [dp_beta0 sh * dp_alpha sh] \/ dp_beta0 sh = 0 /\ tail = []) ->
  draws_follow (map (fun kv => snd kv * dp_alpha sh + INR (count_occ BinInt.Z.eq_dec l (fst kv))) order ++ tail)
    (fun gam u v => exists s, dpd_sampler_init gam sh g order = Ok s /\ dpd_sampler_eval u s = Ok v)
    (fun vs r => List.Forall (fun v => dp_betas sh !! v <> None \/ v = OTHER /\ 0 < dp_beta0 sh) vs /\ ~ In OTHER (removelast vs) /\
       predicted (fun g v s => dpd_score_value dl sh g v = Ok s) (fun g v g' => dpd_add dl sh g v = Ok g') g vs r).
Proof.
  intros lg dl sh order l g N Ha Hb H0 Hm HO Hord Hl Hg tail HT. rewrite (dpd_filled dl sh l Hl) in Hg. apply ok_inj in Hg. subst g.
  destruct (dpd_draws lg dl sh order Ha Hb H0 Hm HO Hord l Hl) as (p & P1 & P2).
  assert (dpd_shapes sh order (dpd_stat l) = map (fun kv => snd kv * dp_alpha sh + INR (count_occ BinInt.Z.eq_dec l (fst kv))) order ++ tail) as E.
  { unfold dpd_shapes. f_equal.
    - apply map_ext. intros kv. rewrite dmap_get. unfold zcount. now rewrite INR_IZR_INZ.
    - destruct HT as [[H ->] | [H ->]]; [| rewrite H]; unfold rltb; destruct (Rlt_dec _ _); try lra; reflexivity. }
  rewrite <- E. exists p. split; [exact P1 |]. intros vs r (Q1 & Q2 & Q3). apply P2. split; [split; assumption | exact Q3].
Qed.
Print Assumptions C84_dpd_draws.

Definition draw_sh : dpd_shared R := mk_dpd_shared 1 2 (1 / 4) {[ 3%Z := 1 / 2; 7%Z := 1 / 4 ]} (dpd_stat [3; 3; 7]%Z).
Example C84_dpd_case : forall lg, let N := NumR lg in
  0 < dp_alpha draw_sh /\ (forall v b, dp_betas draw_sh !! v = Some b -> 0 < b) /\ 0 < dp_beta0 draw_sh /\
  dp_beta0 draw_sh + msum (fun _ b => b) (dp_betas draw_sh) = 1 /\ dp_betas draw_sh !! OTHER = None /\
  drawn_from (fun v => v <> OTHER /\ dp_betas draw_sh !! v <> None) [7; 3; 7]%Z /\
  (List.Forall (fun v => dp_betas draw_sh !! v <> None \/ v = OTHER /\ 0 < dp_beta0 draw_sh) [3%Z; OTHER] /\ ~ In OTHER (removelast [3%Z; OTHER])) /\
  exists g r, c_filled (DPD R) 0 draw_sh [7; 3; 7]%Z = Ok g /\
    predicted (fun g v s => dpd_score_value 0 draw_sh g v = Ok s) (fun g v g' => dpd_add 0 draw_sh g v = Ok g') g [3%Z; OTHER] r.
Proof.
  intros lg N. assert (forall v b, dp_betas draw_sh !! v = Some b -> (v = 3%Z /\ b = 1 / 2) \/ (v = 7%Z /\ b = 1 / 4)) as HB.
  { intros v b E. cbn [draw_sh dp_betas] in E. destruct (decide (v = 3%Z)) as [-> | N3].
    - rewrite lookup_insert in E. injection E as <-. tauto.
    - rewrite lookup_insert_ne in E by congruence. apply lookup_singleton_Some in E. destruct E as [<- <-]. tauto. }
  assert (dp_betas draw_sh !! 3%Z = Some (1 / 2)) as E3 by (cbn [draw_sh dp_betas]; apply lookup_insert).
  assert (dp_betas draw_sh !! 7%Z = Some (1 / 4)) as E7 by (cbn [draw_sh dp_betas]; rewrite lookup_insert_ne by discriminate; apply lookup_singleton).
  assert (dp_betas draw_sh !! OTHER = None) as EO.
  { destruct (dp_betas draw_sh !! OTHER) eqn:E; [| reflexivity]. apply HB in E. destruct E as [[E _] | [E _]]; discriminate. }
  assert (drawn_from (fun v => v <> OTHER /\ dp_betas draw_sh !! v <> None) [7; 3; 7]%Z) as HD.
  { split; [unfold short; cbn; lia |]. repeat (apply List.Forall_cons; [split; [discriminate |]; congruence |]). apply List.Forall_nil. }
  split; [cbn; lra |]. split; [intros v b E; apply HB in E; lra |]. split; [cbn; lra |]. split.
  { cbn [draw_sh dp_betas dp_beta0]. rewrite msum_insert by (apply lookup_singleton_ne; discriminate). unfold singletonM, map_singleton. rewrite msum_insert by apply lookup_empty. rewrite msum_empty. lra. }
  split; [exact EO |]. split; [exact HD |]. split.
  { split; [| intros [H | []]; discriminate]. apply List.Forall_cons; [left; congruence |]. apply List.Forall_cons; [| apply List.Forall_nil].
    right. split; [reflexivity | cbn; lra]. }
  exists (dpd_stat [7; 3; 7]%Z). eexists. split; [now apply dpd_filled |].
  eapply predicted_cons; [reflexivity | reflexivity |]. eapply predicted_last; reflexivity.
Qed.

(** ** Gamma-Poisson *)
Theorem C84_gp_draws : forall lg dl (sh : gp_shared R) (g : gp_group R), lgamma_like lg -> let N := NumR lg in
  0 < gp_alpha sh -> 0 < gp_inv_beta sh -> (0 <= gp_count g)%Z -> (0 <= gp_sum g)%Z ->
  densities_follow [gp_alpha sh + IZR (gp_sum g)] (fun gam _ v => std_pmf (gp_sampler_eval (gp_sampler_init gam sh g)) v)
    (fun vs q => room (gp_count g) (gp_sum g) vs /\
       predicted (fun g v s => gp_score_value sh g v = s) (fun g v g' => gp_add dl sh g v = Ok g') g vs q).
Proof. intros lg dl sh g Hlg N. exact (gp_draws lg Hlg dl sh g). Qed.
Print Assumptions C84_gp_draws.
Example C84_gp_case : forall lg, let N := NumR lg in let sh := mk_gp_shared 2 (1 / 3) in let g := mk_gp 2 9 (5 / 2) in
  0 < gp_alpha sh /\ 0 < gp_inv_beta sh /\ (0 <= gp_count g)%Z /\ (0 <= gp_sum g)%Z /\ room (gp_count g) (gp_sum g) [4; 0; 7]%Z /\
  exists r, predicted (fun g v s => gp_score_value sh g v = s) (fun g v g' => gp_add 0 sh g v = Ok g') g [4; 0; 7]%Z r.
Proof.
  intros lg N sh g. unfold sh, g. cbn [gp_alpha gp_inv_beta gp_count gp_sum room]. split; [lra |]. split; [lra |]. split; [lia |]. split; [lia |].
  split; [cbn; lia |]. eexists. eapply predicted_cons; [reflexivity | reflexivity |]. eapply predicted_cons; [reflexivity | reflexivity |]. eapply predicted_last; reflexivity.
Qed.

(** ** Beta-negative-binomial.  Full statement: as for the other models, the values vs have probability q when
    [predicted ... g vs q].  It is false: the scores leave out the binomial coefficients C(v+r-1, v).  What holds is
    the statement with those coefficients put back. *)
Theorem C84_bnb_draws_partial : forall lg dl (sh : bnb_shared R) g (r : nat), lgamma_like lg -> let N := NumR lg in
  0 < bnb_alpha sh -> 0 < bnb_beta sh -> bnb_r sh = Z.of_nat r -> (0 <= bnb_count g)%Z -> (0 <= bnb_sum g)%Z ->
  densities_follow [bnb_alpha sh + IZR (bnb_r sh) * IZR (bnb_count g); bnb_beta sh + IZR (bnb_sum g)]
    (fun gam u v => std_pmf (bnb_sampler_eval sh (bnb_sampler_init gam u sh g)) v)
    (fun vs q => room (bnb_count g) (bnb_sum g) vs /\
       exists s, predicted (fun g v s => bnb_score_value sh g v = s) (fun g v g' => bnb_add dl sh g v = Ok g') g vs s /\
                 q = coefs r vs * s).
Proof. intros lg dl sh g r Hlg N. exact (bnb_draws lg Hlg dl sh g r). Qed.
Print Assumptions C84_bnb_draws_partial.
Example C84_bnb_case : forall lg, let N := NumR lg in let sh := mk_bnb_shared (3 / 2) 1 2 in let g := mk_bnb 3 5 in
  0 < bnb_alpha sh /\ 0 < bnb_beta sh /\ bnb_r sh = Z.of_nat 2 /\ room (bnb_count g) (bnb_sum g) [4; 0]%Z /\ coefs 2 [4; 0]%Z = 5 /\
  exists r, predicted (fun g v s => bnb_score_value sh g v = s) (fun g v g' => bnb_add 0 sh g v = Ok g') g [4; 0]%Z r.
Proof.
  intros lg N sh g. unfold sh, g. cbn [bnb_alpha bnb_beta bnb_r bnb_count bnb_sum room]. split; [lra |]. split; [lra |]. split; [reflexivity |].
  split; [cbn; lia |]. split; [unfold coefs, product, Binomial.C; cbn [map fold_right]; rewrite !INR_IZR_INZ;
    repeat match goal with |- context [Z.of_nat ?n] => let z := eval vm_compute in (Z.of_nat n) in change (Z.of_nat n) with z end; field |].
  eexists. eapply predicted_cons; [reflexivity | reflexivity |]. eapply predicted_last; reflexivity.
Qed.
Theorem C84_bnb_draws_refuted : forall lg, lgamma_like lg -> let N := NumR lg in
  exists (sh : bnb_shared R) g, 0 < bnb_alpha sh /\ 0 < bnb_beta sh /\ g = bnb_init sh /\
  forall dl, ~ densities_follow [bnb_alpha sh + IZR (bnb_r sh) * IZR (bnb_count g); bnb_beta sh + IZR (bnb_sum g)]
    (fun gam u v => std_pmf (bnb_sampler_eval sh (bnb_sampler_init gam u sh g)) v)
    (fun vs q => room (bnb_count g) (bnb_sum g) vs /\
       predicted (fun g v s => bnb_score_value sh g v = s) (fun g v g' => bnb_add dl sh g v = Ok g') g vs q).
Proof. intros lg Hlg N. exact (bnb_draws_not lg Hlg). Qed.
Print Assumptions C84_bnb_draws_refuted.

(** The logarithm of Euler's integral exists and has the recurrence the other theorems ask for. *)
Theorem C84_log_gamma : (exists lg, is_log_gamma lg) /\ forall lg, is_log_gamma lg -> lgamma_like lg.
Proof. split; [exists ln_gamma; exact ln_gamma_is | exact log_gamma_like]. Qed.
Print Assumptions C84_log_gamma.

(** ** Normal-inverse-chi-squared: the sampler draws a variance and a centre, then values around that centre.  The
    values vs have the joint density the scores state, up to the factor by which the literal M_PIf differs from pi. *)
Theorem C85_nich_draws : forall lg dl (sh : nich_shared R) g, is_log_gamma lg -> let N := NumR lg in
  0 < ni_kappa sh -> 0 < ni_nu sh -> 0 < ni_sigmasq sh -> (0 <= ni_count g)%Z -> 0 <= ni_ctv g ->
  normal_draws_follow [(ni_nu sh + IZR (ni_count g)) / 2]
    (fun gam => std_normal (snd (nich_sampler_init gam sh g)))
    (fun gam m => std_normal (nich_sampler_eval m (fst (nich_sampler_init gam sh g))))
    (fun vs r => exists q, predicted (fun g v s => nich_score_value sh g v = s) (fun g v g' => nich_add dl sh g v = Ok g') g vs q /\
       r = q * R_sqrt.sqrt (314159265358979 / 100000000000000 / PI) ^ length vs).
Proof.
  intros lg dl sh g HG N Hk Hn Hs Hc Hv. destruct (nich_draws lg dl sh g HG Hk Hn Hs Hc Hv) as (p & P1 & P2).
  exists p. split; [exact P1 |]. intros vs r (q & HL & ->). apply P2. exists q. split; [exact HL |]. f_equal.
  pose proof PI_RGT_0 as PP. set (c := 314159265358979 / 100000000000000). assert (0 < c) as Pc by (unfold c; lra).
  rewrite <- Rpower_pow by (apply sqrt_lt_R0; now apply Rdiv_lt_0_compat).
  unfold Rpower. f_equal. rewrite <- (Rpower_sqrt (c / PI)) by (now apply Rdiv_lt_0_compat). unfold Rpower. rewrite ln_exp.
  unfold m_pi_gap. fold c. unfold Rdiv. rewrite ln_mult, ln_Rinv by (try apply Rinv_0_lt_compat; assumption). ring.
Qed.
Print Assumptions C85_nich_draws.
Example C85_nich_case : forall lg, let N := NumR lg in let sh := mk_nich_shared 0 1 2 3 in let g := mk_nich 2 (1 / 2) (9 / 2) in
  0 < ni_kappa sh /\ 0 < ni_nu sh /\ 0 < ni_sigmasq sh /\ (0 <= ni_count g)%Z /\ 0 <= ni_ctv g /\
  exists q, predicted (fun g v s => nich_score_value sh g v = s) (fun g v g' => nich_add 0 sh g v = Ok g') g [1; -2; 1 / 3] q.
Proof.
  intros lg N sh g. unfold sh, g. cbn [ni_kappa ni_nu ni_sigmasq ni_count ni_ctv]. split; [lra |]. split; [lra |]. split; [lra |]. split; [lia |]. split; [lra |].
  eexists. eapply predicted_cons; [reflexivity | reflexivity |]. eapply predicted_cons; [reflexivity | reflexivity |]. eapply predicted_last; reflexivity.
Qed.
(** The factor is within a few units of the fifteenth decimal of 1. *)
Theorem C85_literal_pi : 1 - 4 / 10 ^ 15 <= R_sqrt.sqrt (314159265358979 / 100000000000000 / PI) <= 1.
Proof. exact pi_factor. Qed.
Print Assumptions C85_literal_pi.

(** The hypotheses on g in C85 hold of the group left by any history of adds, removes and merges. *)
Theorem C85_groups : forall lg dl (sh : nich_shared R) ops l, ghistory nich_op short [] ops l ->
  exists g, grun (NICH R (N := NumR lg)) dl sh (c_init (NICH R (N := NumR lg)) sh) ops = Ok g /\ (0 <= ni_count g)%Z /\ 0 <= ni_ctv g.
Proof.
  intros lg dl sh ops l H. exists (nich_stat l). split; [now apply nich_history |]. split; [cbn; lia | apply ssd_nonneg].
Qed.
Print Assumptions C85_groups.
Example C85_groups_case : exists l, ghistory nich_op short [] [GAdd 1; GAdd 5; GMerge [3; 7]; GRem 5] l.
Proof.
  eexists. eapply gh_cons; [apply gs_add | exact I | unfold short; cbn; lia |].
  eapply gh_cons; [apply gs_add | exact I | unfold short; cbn; lia |].
  eapply gh_cons; [apply gs_merge | cbn; discriminate | unfold short; cbn; lia |].
  eapply gh_cons; [apply (gs_rem [3; 7] 5 [1]) | exact I | unfold short; cbn; lia |].
  constructor.
Qed.
