(** Properties C28 - C31, C37, C38, C58: scores of single groups and of lists of groups, in
    exact arithmetic ([NumR lg]: the reals, lgamma any function [lg]). *)
From Coq Require Import Permutation Reals Lra.
From Verif.model Require Import Base Num NumR VectorMath Component Slave BB BNB GP NICH DD.
From Verif.spec Require Import GroupSpec GaussSpec LgammaSpec VectorSpec.
From Verif.proof Require Import BaseProof GroupProof BBProof CountsProof NICHProof DDProof LgammaProof
  ScoreProof DDScore DataProof ClosedForm.
Local Open Scope R_scope.

(** ** C28: the sum of the predictive scores of a data sequence, each value scored given the
    group of the previous ones and then added, is score_data of the group holding all the data;
    the empty group scores 0. *)
Theorem C28_bb_chain_rule : forall lg, lgamma_like lg -> forall dl (sh : bb_shared R) l,
  0 < bb_alpha sh -> 0 < bb_beta sh -> short l ->
  (exists g, c_filled (BB R) dl sh l = Ok g /\
    c_chain (BB R) dl sh 0 Rplus (fun sh g v => Ok (bb_score_value (N:=NumR lg) sh g v)) (c_init (BB R) sh) l =
    Ok (bb_score_data (N:=NumR lg) sh g)) /\
  bb_score_data (N:=NumR lg) sh (c_init (BB R) sh) = 0.
Proof.
  intros lg Hlg dl sh l Ha Hb Hl. split; [|apply bb_sd_empty]. exists (bb_stat l).
  split; [now apply bb_filled|now apply bb_chain].
Qed.
Print Assumptions C28_bb_chain_rule.

Theorem C28_dd_chain_rule : forall lg, lgamma_like lg -> forall dl (sh : dd_shared R) l,
  List.Forall (fun a => 0 < a) (dd_alphas sh) -> in_dim (dd_dim sh) l ->
  (exists g s, c_filled (DD R) dl sh l = Ok g /\ dd_score_data (N:=NumR lg) sh g = Ok s /\
    c_chain (DD R) dl sh 0 Rplus (dd_score_value (N:=NumR lg) dl) (c_init (DD R) sh) l = Ok s) /\
  dd_score_data (N:=NumR lg) sh (c_init (DD R) sh) = Ok 0.
Proof.
  intros lg Hlg dl sh l Ha Hl. split; [|apply dd_sd_empty].
  exists (dd_stat (dd_dim sh) l), (dd_sd lg (dd_alphas sh) (dd_stat (dd_dim sh) l)).
  assert (E : dd_score_data (N:=NumR lg) sh (dd_stat (dd_dim sh) l) = Ok (dd_sd lg (dd_alphas sh) (dd_stat (dd_dim sh) l))).
  { apply dd_score_data_eq. cbn [dd_stat dd_counts]. apply tally_length. }
  split; [now apply dd_filled|]. split; [exact E|]. rewrite <- E. now apply dd_chain.
Qed.
Print Assumptions C28_dd_chain_rule.

Theorem C28_gp_chain_rule : forall lg dl (sh : gp_shared R) l, small_counts l ->
  let C := GP R (N:=NumR lg) in
  (exists g, c_filled C dl sh l = Ok g /\
    c_chain C dl sh 0 Rplus (fun sh g v => Ok (gp_score_value (N:=NumR lg) sh g v)) (c_init C sh) l =
    Ok (gp_score_data (N:=NumR lg) sh g)) /\
  gp_score_data (N:=NumR lg) sh (c_init C sh) = 0.
Proof.
  intros lg dl sh l Hl C. split; [|apply gp_sd_empty]. exists (gp_stat l).
  split; [apply gp_filled|now apply gp_chain].
Qed.
Print Assumptions C28_gp_chain_rule.

Theorem C28_bnb_chain_rule : forall lg dl (sh : bnb_shared R) l, small_counts l ->
  (exists g, c_filled (BNB R) dl sh l = Ok g /\
    c_chain (BNB R) dl sh 0 Rplus (fun sh g v => Ok (bnb_score_value (N:=NumR lg) sh g v)) (c_init (BNB R) sh) l =
    Ok (bnb_score_data (N:=NumR lg) sh g)) /\
  bnb_score_data (N:=NumR lg) sh (c_init (BNB R) sh) = 0.
Proof.
  intros lg dl sh l Hl. split; [|apply bnb_sd_empty]. exists (bnb_stat l).
  split; [apply bnb_filled|now apply bnb_chain].
Qed.
Print Assumptions C28_bnb_chain_rule.

(** For the normal-inverse-chi-squared model the rule holds up to half the difference between the
    literal log_pi of score_data and the logarithm of the literal M_PIf of score_value, per datum. *)
Theorem C28_nich_chain_rule_up_to_pi : forall lg dl (sh : nich_shared R) (l : list R),
  0 < ni_kappa sh -> 0 < ni_nu sh -> 0 < ni_sigmasq sh -> short l ->
  let C := NICH R (N:=NumR lg) in
  let gap := / 2 * (11447298858493991 / 10000000000000000 - ln (314159265358979 / 100000000000000)) in
  (exists g, c_filled C dl sh l = Ok g /\
    c_chain C dl sh 0 Rplus (fun sh g v => Ok (nich_score_value (N:=NumR lg) sh g v)) (c_init C sh) l =
    Ok (nich_score_data (N:=NumR lg) sh g + INR (length l) * gap)) /\
  nich_score_data (N:=NumR lg) sh (c_init C sh) = 0.
Proof.
  intros lg dl sh l Hk Hn Hs Hl C gap. split.
  - exists (nich_stat l). split; [now apply nich_filled|]. exact (nich_chain lg dl sh l Hk Hn Hs Hl).
  - unfold C. rewrite nich_init_stat. now apply nich_sd_empty.
Qed.
Print Assumptions C28_nich_chain_rule_up_to_pi.

(** Hence the order in which the data are scored does not matter. *)
Theorem C28_exchangeable : forall lg, lgamma_like lg -> forall dl,
  (forall (sh : bb_shared R) l l', Permutation l l' -> 0 < bb_alpha sh -> 0 < bb_beta sh -> short l ->
    c_chain (BB R) dl sh 0 Rplus (fun sh g v => Ok (bb_score_value (N:=NumR lg) sh g v)) (c_init (BB R) sh) l =
    c_chain (BB R) dl sh 0 Rplus (fun sh g v => Ok (bb_score_value (N:=NumR lg) sh g v)) (c_init (BB R) sh) l') /\
  (forall (sh : dd_shared R) (l l' : list Z), Permutation l l' -> List.Forall (fun a => 0 < a) (dd_alphas sh) -> in_dim (dd_dim sh) l ->
    c_chain (DD R) dl sh 0 Rplus (dd_score_value (N:=NumR lg) dl) (c_init (DD R) sh) l =
    c_chain (DD R) dl sh 0 Rplus (dd_score_value (N:=NumR lg) dl) (c_init (DD R) sh) l') /\
  (forall (sh : gp_shared R) (l l' : list Z), Permutation l l' -> small_counts l -> let C := GP R (N:=NumR lg) in
    c_chain C dl sh 0 Rplus (fun sh g v => Ok (gp_score_value (N:=NumR lg) sh g v)) (c_init C sh) l =
    c_chain C dl sh 0 Rplus (fun sh g v => Ok (gp_score_value (N:=NumR lg) sh g v)) (c_init C sh) l') /\
  (forall (sh : bnb_shared R) (l l' : list Z), Permutation l l' -> small_counts l ->
    c_chain (BNB R) dl sh 0 Rplus (fun sh g v => Ok (bnb_score_value (N:=NumR lg) sh g v)) (c_init (BNB R) sh) l =
    c_chain (BNB R) dl sh 0 Rplus (fun sh g v => Ok (bnb_score_value (N:=NumR lg) sh g v)) (c_init (BNB R) sh) l') /\
  (forall (sh : nich_shared R) (l l' : list R), Permutation l l' ->
    0 < ni_kappa sh -> 0 < ni_nu sh -> 0 < ni_sigmasq sh -> short l -> let C := NICH R (N:=NumR lg) in
    c_chain C dl sh 0 Rplus (fun sh g v => Ok (nich_score_value (N:=NumR lg) sh g v)) (c_init C sh) l =
    c_chain C dl sh 0 Rplus (fun sh g v => Ok (nich_score_value (N:=NumR lg) sh g v)) (c_init C sh) l').
Proof.
  intros lg Hlg dl. split; [|split; [|split; [|split]]].
  - intros sh l l' P Ha Hb Hl. rewrite !bb_chain by (auto; eapply short_perm; eauto). now rewrite (bb_stat_perm l l' P).
  - intros sh l l' P Ha Hl. rewrite !dd_chain by (auto; eapply in_dim_perm; eauto). now rewrite (dd_stat_perm _ l l' P).
  - intros sh l l' P Hl C. unfold C. rewrite !gp_chain by (auto; eapply small_counts_perm; eauto). now rewrite (gp_stat_perm l l' P).
  - intros sh l l' P Hl. rewrite !bnb_chain by (auto; eapply small_counts_perm; eauto). now rewrite (bnb_stat_perm l l' P).
  - intros sh l l' P Hk Hn Hs Hl C. unfold C. rewrite (nich_chain lg dl sh l), (nich_chain lg dl sh l') by (auto; eapply short_perm; eauto).
    now rewrite (nich_stat_perm l l' P), (Permutation_length P).
Qed.
Print Assumptions C28_exchangeable.

(** lgamma_like is satisfiable, and the hypotheses on hyperparameters and data are met. *)
Example C28_nonvacuous : (exists lg, lgamma_like lg) /\
  (let sh := mk_dd_shared [/ 2; 1; 3] in
   List.Forall (fun a => 0 < a) (dd_alphas sh) /\ in_dim (dd_dim sh) [2; 0; 2; 1]%Z) /\
  small_counts [4; 0; 17]%Z /\ short [true; false; true].
Proof.
  split; [exists lg_witness; exact lg_witness_ok|]. split; [|split].
  - split; [repeat constructor; lra|]. split; [unfold short; cbn; lia|repeat constructor; cbn; lia].
  - split; [cbn; lia|split; [repeat constructor; lia|cbn; lia]].
  - unfold short. cbn. lia.
Qed.

(** ** C29: conditioning in two steps is conditioning at once. *)
Theorem C29_plus_group_composes : forall lg dl,
  (forall (sh : gp_shared R) (xs ys : list Z), small_counts (xs ++ ys) -> let C := GP R (N:=NumR lg) in
    exists gx gy gxy, c_filled C dl sh xs = Ok gx /\ c_filled C dl sh ys = Ok gy /\ c_filled C dl sh (xs ++ ys) = Ok gxy /\
      gp_plus_group (N:=NumR lg) sh gxy = gp_plus_group (N:=NumR lg) (gp_plus_group (N:=NumR lg) sh gx) gy) /\
  (forall (sh : bnb_shared R) (xs ys : list Z), small_counts (xs ++ ys) ->
    exists gx gy gxy, c_filled (BNB R) dl sh xs = Ok gx /\ c_filled (BNB R) dl sh ys = Ok gy /\ c_filled (BNB R) dl sh (xs ++ ys) = Ok gxy /\
      bnb_plus_group (N:=NumR lg) sh gxy = bnb_plus_group (N:=NumR lg) (bnb_plus_group (N:=NumR lg) sh gx) gy) /\
  (forall (sh : nich_shared R) (xs ys : list R), 0 < ni_kappa sh -> 0 < ni_nu sh -> short (xs ++ ys) -> let C := NICH R (N:=NumR lg) in
    exists gx gy gxy, c_filled C dl sh xs = Ok gx /\ c_filled C dl sh ys = Ok gy /\ c_filled C dl sh (xs ++ ys) = Ok gxy /\
      nich_plus_group (N:=NumR lg) sh gxy = nich_plus_group (N:=NumR lg) (nich_plus_group (N:=NumR lg) sh gx) gy).
Proof.
  intros lg dl. split; [|split].
  - intros sh xs ys H C. exists (gp_stat xs), (gp_stat ys), (gp_stat (xs ++ ys)).
    repeat (split; [apply gp_filled|]). now apply gp_plus_plus.
  - intros sh xs ys H. exists (bnb_stat xs), (bnb_stat ys), (bnb_stat (xs ++ ys)).
    repeat (split; [apply bnb_filled|]). now apply bnb_plus_plus.
  - intros sh xs ys Hk Hn H C. exists (nich_stat xs), (nich_stat ys), (nich_stat (xs ++ ys)).
    assert (short xs /\ short ys) as [Hx Hy] by (unfold short in *; rewrite app_length in H; lia).
    repeat (split; [now apply nich_filled|]). now apply nich_plus_plus.
Qed.
Print Assumptions C29_plus_group_composes.

(** Hence the predictive score given xs ++ ys under the prior is the one given ys under the
    posterior of xs. *)
Theorem C29_predictive_composes : forall lg dl,
  (forall (sh : gp_shared R) (xs ys : list Z) (v : Z), small_counts (xs ++ ys) -> let C := GP R (N:=NumR lg) in
    exists gx gy gxy, c_filled C dl sh xs = Ok gx /\ c_filled C dl sh ys = Ok gy /\ c_filled C dl sh (xs ++ ys) = Ok gxy /\
      gp_score_value (N:=NumR lg) sh gxy v = gp_score_value (N:=NumR lg) (gp_plus_group (N:=NumR lg) sh gx) gy v) /\
  (forall (sh : bnb_shared R) (xs ys : list Z) (v : Z), small_counts (xs ++ ys) ->
    exists gx gy gxy, c_filled (BNB R) dl sh xs = Ok gx /\ c_filled (BNB R) dl sh ys = Ok gy /\ c_filled (BNB R) dl sh (xs ++ ys) = Ok gxy /\
      bnb_score_value (N:=NumR lg) sh gxy v = bnb_score_value (N:=NumR lg) (bnb_plus_group (N:=NumR lg) sh gx) gy v) /\
  (forall (sh : nich_shared R) (xs ys : list R) (v : R), 0 < ni_kappa sh -> 0 < ni_nu sh -> short (xs ++ ys) -> let C := NICH R (N:=NumR lg) in
    exists gx gy gxy, c_filled C dl sh xs = Ok gx /\ c_filled C dl sh ys = Ok gy /\ c_filled C dl sh (xs ++ ys) = Ok gxy /\
      nich_score_value (N:=NumR lg) sh gxy v = nich_score_value (N:=NumR lg) (nich_plus_group (N:=NumR lg) sh gx) gy v).
Proof.
  intros lg dl. destruct (C29_plus_group_composes lg dl) as (A & B & C). split; [|split].
  - intros sh xs ys v H. destruct (A sh xs ys H) as (gx & gy & gxy & E1 & E2 & E3 & E). exists gx, gy, gxy.
    repeat (split; [assumption|]). unfold gp_score_value, gp_scorer_init. now rewrite E.
  - intros sh xs ys v H. destruct (B sh xs ys H) as (gx & gy & gxy & E1 & E2 & E3 & E). exists gx, gy, gxy.
    repeat (split; [assumption|]). unfold bnb_score_value. rewrite E. cbn [bnb_plus_group bnb_r]. reflexivity.
  - intros sh xs ys v Hk Hn H. destruct (C sh xs ys Hk Hn H) as (gx & gy & gxy & E1 & E2 & E3 & E). exists gx, gy, gxy.
    repeat (split; [assumption|]). unfold nich_score_value, nich_scorer_init. now rewrite E.
Qed.
Print Assumptions C29_predictive_composes.

(** ** C30: the predictive probabilities sum to 1, for the group of every data set. *)
Theorem C30_bb_normalised : forall lg dl (sh : bb_shared R) l g,
  0 < bb_alpha sh -> 0 < bb_beta sh -> short l -> c_filled (BB R) dl sh l = Ok g ->
  exp (bb_score_value (N:=NumR lg) sh g true) + exp (bb_score_value (N:=NumR lg) sh g false) = 1.
Proof.
  intros lg dl sh l g Ha Hb Hl Hg. rewrite (bb_filled dl sh l Hl) in Hg. injection Hg as <-.
  apply bb_norm; auto; cbn; lia.
Qed.
Print Assumptions C30_bb_normalised.

Theorem C30_dd_normalised : forall lg dl (sh : dd_shared R) l g,
  (0 < dd_dim sh)%nat -> List.Forall (fun a => 0 < a) (dd_alphas sh) -> in_dim (dd_dim sh) l ->
  c_filled (DD R) dl sh l = Ok g ->
  exists f, (forall v, (v < dd_dim sh)%nat -> dd_score_value (N:=NumR lg) dl sh g (Z.of_nat v) = Ok (f v)) /\
    rsum (map (fun v => exp (f v)) (seq 0 (dd_dim sh))) = 1.
Proof.
  intros lg dl sh l g Hd Ha Hl Hg. rewrite (dd_filled dl sh l Hl) in Hg. injection Hg as <-.
  destruct (dd_norm lg dl sh (dd_stat (dd_dim sh) l)) as (f & A & B); auto.
  - cbn [dd_stat dd_counts]. apply tally_length.
  - cbn [dd_stat dd_counts]. apply tally_nonneg.
  - exists f. split; [exact A|]. rewrite <- B. apply rsum_seq.
Qed.
Print Assumptions C30_dd_normalised.

Example C30_nonvacuous : let sh := mk_dd_shared [/ 2; 1; 3] in
  (0 < dd_dim sh)%nat /\ List.Forall (fun a => 0 < a) (dd_alphas sh) /\ in_dim (dd_dim sh) [2; 0; 2]%Z /\
  c_filled (DD R) 3 sh [2; 0; 2]%Z = Ok (mk_dd [1; 0; 2]%Z 3).
Proof.
  cbn zeta. split; [cbn; lia|]. split; [repeat constructor; lra|].
  split; [split; [unfold short; cbn; lia|repeat constructor; cbn; lia]|reflexivity].
Qed.

(** ** C31: Scorer::init then Scorer::eval returns Group::score_value.  For BB, DD, GP and NICH
    score_value is written in terms of the Scorer; for BNB it is a separate formula. *)
Theorem C31_scorer_agrees :
  (forall lg (sh : bnb_shared R) g v,
    bnb_scorer_eval (N:=NumR lg) (bnb_scorer_init (N:=NumR lg) sh g) v = bnb_score_value (N:=NumR lg) sh g v) /\
  (forall (F : Type) (N : Num F) (sh : bb_shared F) g v, bb_scorer_eval (bb_scorer_init sh g) v = bb_score_value sh g v) /\
  (forall (F : Type) (N : Num F) (sh : gp_shared F) g v, gp_scorer_eval (gp_scorer_init sh g) v = gp_score_value sh g v) /\
  (forall (F : Type) (N : Num F) (sh : nich_shared F) g v, nich_scorer_eval (nich_scorer_init sh g) v = nich_score_value sh g v) /\
  (forall (F : Type) (N : Num F) dl (sh : dd_shared F) g v s, dd_scorer_init sh g = Ok s ->
    dd_scorer_eval dl sh s v = dd_score_value dl sh g v).
Proof.
  split; [exact bnb_scorer_agrees|]. repeat split; try reflexivity.
  intros F N dl sh g v s H. unfold dd_score_value. now rewrite H.
Qed.
Print Assumptions C31_scorer_agrees.

(** ** C58: closed forms of the predictive probabilities, said with the data only. *)
Theorem C58_bb_predictive : forall lg dl (sh : bb_shared R) l g v,
  0 < bb_alpha sh -> 0 < bb_beta sh -> short l -> c_filled (BB R) dl sh l = Ok g ->
  exp (bb_score_value (N:=NumR lg) sh g v) =
  ((if v then bb_alpha sh else bb_beta sh) + INR (count_occ Bool.bool_dec l v)) /
  (bb_alpha sh + bb_beta sh + INR (length l)).
Proof. exact bb_closed. Qed.
Print Assumptions C58_bb_predictive.

Theorem C58_dd_predictive : forall lg dl (sh : dd_shared R) (l : list Z) g v a,
  List.Forall (fun a => 0 < a) (dd_alphas sh) -> in_dim (dd_dim sh) l ->
  c_filled (DD R) dl sh l = Ok g -> nth_error (dd_alphas sh) v = Some a ->
  exists s, dd_score_value (N:=NumR lg) dl sh g (Z.of_nat v) = Ok s /\
    exp s = (a + INR (count_occ BinInt.Z.eq_dec l (Z.of_nat v))) / (rsum (dd_alphas sh) + INR (length l)).
Proof. exact dd_closed. Qed.
Print Assumptions C58_dd_predictive.

(** Gamma-Poisson: the negative binomial with r = alpha + sum and p = 1 / (1 + inv_beta + n),
    with the rising factorial r (r+1) ... (r+v-1) for Gamma(r+v) / Gamma(r). *)
Theorem C58_gp_predictive : forall lg, lgamma_like lg -> forall dl (sh : gp_shared R) (l : list Z) g (v : nat),
  0 < gp_alpha sh -> 0 < gp_inv_beta sh -> small_counts l ->
  c_filled (GP R (N:=NumR lg)) dl sh l = Ok g ->
  let r := gp_alpha sh + IZR (zsum l) in
  let b := gp_inv_beta sh + INR (length l) in
  exp (gp_score_value (N:=NumR lg) sh g (Z.of_nat v)) =
  rising r v / INR (fact v) * Rpower (b / (1 + b)) r * (1 / (1 + b)) ^ v.
Proof. exact gp_closed. Qed.
Print Assumptions C58_gp_predictive.

(** Beta negative binomial: Gamma(a+b)/Gamma(a+b+r+v) * Gamma(a+r)/Gamma(a) * Gamma(b+v)/Gamma(b)
    as rising factorials. *)
Theorem C58_bnb_predictive : forall lg, lgamma_like lg -> forall dl (sh : bnb_shared R) (l : list Z) g (v r : nat),
  0 < bnb_alpha sh -> 0 < bnb_beta sh -> bnb_r sh = Z.of_nat r -> small_counts l ->
  c_filled (BNB R) dl sh l = Ok g ->
  let a := bnb_alpha sh + INR r * INR (length l) in
  let b := bnb_beta sh + IZR (zsum l) in
  exp (bnb_score_value (N:=NumR lg) sh g (Z.of_nat v)) = rising a r * rising b v / rising (a + b) (r + v).
Proof. exact bnb_closed. Qed.
Print Assumptions C58_bnb_predictive.

Example C58_nonvacuous : let sh := mk_gp_shared 2 1 in
  0 < gp_alpha sh /\ 0 < gp_inv_beta sh /\ small_counts [3; 0; 4]%Z /\
  (exists g, c_filled (GP R (N:=NumR lg_witness)) 0 sh [3; 0; 4]%Z = Ok g) /\ rising 9 2 = 90.
Proof.
  cbn zeta. split; [cbn; lra|]. split; [cbn; lra|]. split; [split; [cbn; lia|split; [repeat constructor; lia|cbn; lia]]|].
  split; [eexists; apply gp_filled|]. cbn. lra.
Qed.

(** ** C37: the mixture's score_data is the sum over the groups of Group::score_data. *)
Theorem C37_mixture_score_data : forall lg dl,
  (forall (sh : bb_shared R) gs,
    bb_mixture_score_data (N:=NumR lg) sh gs = rsum (map (bb_score_data (N:=NumR lg) sh) gs)) /\
  (forall (sh : gp_shared R) data gs,
    Forall2 (fun (l : list Z) g => small_counts l /\ c_filled (GP R (N:=NumR lg)) dl sh l = Ok g) data gs ->
    gp_mixture_score_data (N:=NumR lg) sh gs = rsum (map (gp_score_data (N:=NumR lg) sh) gs)) /\
  (forall (sh : bnb_shared R) data gs,
    Forall2 (fun (l : list Z) g => small_counts l /\ c_filled (BNB R) dl sh l = Ok g) data gs ->
    bnb_mixture_score_data (N:=NumR lg) sh gs = rsum (map (bnb_score_data (N:=NumR lg) sh) gs)) /\
  (forall (sh : nich_shared R) data gs, 0 < ni_kappa sh -> 0 < ni_nu sh ->
    Forall2 (fun (l : list R) g => short l /\ c_filled (NICH R (N:=NumR lg)) dl sh l = Ok g) data gs ->
    nich_mixture_score_data (N:=NumR lg) sh gs = rsum (map (nich_score_data (N:=NumR lg) sh) gs)) /\
  (forall (sh : dd_shared R) old data gs,
    Forall2 (fun (l : list Z) g => in_dim (dd_dim sh) l /\ c_filled (DD R) dl sh l = Ok g) data gs ->
    exists ss, Forall2 (fun g s => dd_score_data (N:=NumR lg) sh g = Ok s) gs ss /\
      dd_ds_score_data (N:=NumR lg) old sh gs = Ok (rsum ss)).
Proof.
  intros lg dl. split; [intros; apply bb_data|]. split; [|split; [|split]].
  - intros sh data gs H. apply gp_data. intros g Hg. apply (Forall2_in_r _ _ _ H) in Hg.
    destruct Hg as (l & Hl & E). rewrite gp_filled in E. injection E as <-.
    destruct (small_u32 _ Hl) as [E1 E2]. unfold gp_stat. cbn [gp_count gp_sum gp_log_prod]. rewrite E1. intro Z.
    destruct l; [split; reflexivity|cbn [length] in Z; lia].
  - intros sh data gs H. apply bnb_data. intros g Hg. apply (Forall2_in_r _ _ _ H) in Hg.
    destruct Hg as (l & Hl & E). rewrite bnb_filled in E. injection E as <-.
    destruct (small_u32 _ Hl) as [E1 E2]. unfold bnb_stat. cbn [bnb_count bnb_sum]. rewrite E1. intro Z.
    destruct l; [reflexivity|cbn [length] in Z; lia].
  - intros sh data gs Hk Hn H. apply nich_data; auto. intros g Hg. apply (Forall2_in_r _ _ _ H) in Hg.
    destruct Hg as (l & Hl & E). rewrite nich_filled in E by exact Hl. injection E as <-.
    unfold nich_stat. cbn [ni_count ni_mean ni_ctv]. split; [lia|]. intro Z.
    destruct l; [split; [reflexivity|apply ssd_nil]|cbn [length] in Z; lia].
  - intros sh old data gs H. exists (map (dd_sd lg (dd_alphas sh)) gs). split.
    + apply Forall2_map_r. intros g Hg. apply (Forall2_in_r _ _ _ H) in Hg. destruct Hg as (l & Hl & E).
      rewrite (dd_filled dl sh l Hl) in E. injection E as <-. apply dd_score_data_eq. cbn. apply tally_length.
    + apply dd_ds_score_ok. eapply dd_filled_wf, H.
Qed.
Print Assumptions C37_mixture_score_data.

(** score_data_grid (default implementation, in every arithmetic) is score_data at every point of
    the grid; a result buffer of the wrong length is rejected. *)
Theorem C37_score_data_grid : forall (C : component) (F : Type) (score : shared_t C -> list (group_t C) -> F) shareds gs out,
  (length shareds = length out ->
    grid_scorer (fun sh gs => Ok (score sh gs)) shareds gs out = Ok (map (fun sh => score sh gs) shareds)) /\
  (length shareds <> length out -> grid_scorer (fun sh gs => Ok (score sh gs)) shareds gs out = Fail).
Proof. intros. split; [apply grid_scorer_ok|apply grid_scorer_fail]. Qed.
Print Assumptions C37_score_data_grid.

(** SmallMixture, for any model: the sum of the groups' own score_data; the first group whose score fails or is
    undefined decides otherwise. *)
Theorem C37_small_mixture_score_data : forall lg (C : component) (gscore : shared_t C -> group_t C -> outcome R) sh gs ss,
  Forall2 (fun g s => gscore sh g = Ok s) gs ss ->
  small_score_data (N:=NumR lg) gscore sh gs = Ok (rsum ss) /\
  forall g gs', (gscore sh g = Fail -> small_score_data (N:=NumR lg) gscore sh (gs ++ g :: gs') = Fail) /\
                (gscore sh g = UB -> small_score_data (N:=NumR lg) gscore sh (gs ++ g :: gs') = UB).
Proof.
  intros lg C gscore sh gs ss H. split; [now apply small_sum |]. intros g gs'.
  split; intros E; pose proof (small_fails lg gscore sh gs g gs' ss H) as Q; rewrite E in Q; apply Q; discriminate.
Qed.
Print Assumptions C37_small_mixture_score_data.
Example C37_small_nonvacuous : let gscore (sh : bb_shared R) (g : bb_group) := if (bb_heads g <? 0)%Z then Fail else Ok (IZR (bb_heads g)) in
  Forall2 (fun g s => gscore (mk_bb_shared 1 2) g = Ok s) [mk_bb 2 3; mk_bb 0 1] [2; 0] /\ gscore (mk_bb_shared 1 2) (mk_bb (-1) 0) = Fail.
Proof. intros gscore. split; [repeat constructor | reflexivity]. Qed.

Example C37_nonvacuous : exists gs,
  Forall2 (fun (l : list Z) g => in_dim 2 l /\ c_filled (DD R) 0 (mk_dd_shared [1; 2]) l = Ok g)
    [[1; 0; 1]; []; [0]]%Z gs /\ gs = [mk_dd [1; 2] 3; mk_dd [0; 0] 0; mk_dd [1; 0] 1]%Z.
Proof.
  eexists. split; [|reflexivity].
  repeat (constructor; [split; [split; [unfold short; cbn; lia|repeat constructor; cbn; lia]|reflexivity]|]). constructor.
Qed.

(** ** C38: the incremental grid of the Dirichlet-discrete model.  Every grid of shareds of one
    dimension, every list of groups: the result at every point is score_data at that point alone,
    whatever the scratch vectors held before ([old], [old']). *)
Theorem C38_dd_grid_exact : forall lg dl (sh0 : dd_shared R) shareds old old' data gs out,
  length (sh0 :: shareds) = length out ->
  List.Forall (fun sh => dd_dim sh = dd_dim sh0) shareds ->
  Forall2 (fun (l : list Z) g => in_dim (dd_dim sh0) l /\ c_filled (DD R) dl sh0 l = Ok g) data gs ->
  exists res, dd_ds_score_data_grid (N:=NumR lg) old (sh0 :: shareds) gs out = Ok res /\
    Forall2 (fun sh s => dd_ds_score_data (N:=NumR lg) old' sh gs = Ok s) (sh0 :: shareds) res.
Proof.
  intros lg dl sh0 shareds old old' data gs out L D H. pose proof (dd_filled_wf _ _ _ _ H) as W.
  eexists. split; [apply dd_grid_ok; auto|].
  apply Forall2_map_r. intros sh Hsh. apply dd_ds_score_ok.
  destruct Hsh as [<-|Hsh]; [exact W|]. rewrite Forall_forall in D. rewrite (D sh Hsh). exact W.
Qed.
Print Assumptions C38_dd_grid_exact.

Theorem C38_dd_grid_wrong_buffer : forall lg old (shareds : list (dd_shared R)) gs out,
  length shareds <> length out -> dd_ds_score_data_grid (N:=NumR lg) old shareds gs out = Fail.
Proof. intros lg old shareds gs out H. unfold dd_ds_score_data_grid. now rewrite (proj2 (Nat.eqb_neq _ _) H). Qed.
Print Assumptions C38_dd_grid_wrong_buffer.

(** A grid whose points differ in one, none and all coordinates. *)
Example C38_nonvacuous :
  let grid := map mk_dd_shared [[1; 2]; [1; 5]; [1; 5]; [3; 4]] in
  exists sh0 rest, grid = sh0 :: rest /\ List.Forall (fun sh => dd_dim sh = dd_dim sh0) rest /\ length grid = length [0; 0; 0; 0].
Proof. cbn zeta. do 2 eexists. split; [reflexivity|]. split; [repeat constructor|reflexivity]. Qed.
