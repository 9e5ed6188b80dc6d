(** Property C82: the C++ groups, shareds and scores agree with the Python reference flavour
    (distributions/dbg) and the double-precision Cython flavour (distributions/hp), for every
    history of a group, including merges of groups with histories of their own. *)
From Coq Require Import Reals Lra Lia Permutation.
From Verif.model Require Import Base Num NumR VectorMath Component HistoryRun BB GP BNB NICH DD NIW Dbg DbgNIW Random Sampler.
From Verif.spec Require Import FlavorSpec LgammaSpec.
From Verif.proof Require Import LgammaProof FlavorProof FlavorDD FlavorNIW FlavorHp FlavorClustering.
From stdpp Require Import gmap fin_maps.
From Verif.model Require Import Sparse DPD DbgDPD.
From Verif.proof Require Import FlavorDPD.
Local Open Scope R_scope.

(** ** Beta-Bernoulli *)
Theorem C82_bb_flavors : forall lg dl (sh : bb_shared R) l g, hrun (BB R) dl sh l = Ok g ->
  exists p, hrun (PyBB R) dl sh l = Ok p /\ bb_heads g = pbb_heads p /\ bb_tails g = pbb_tails p /\
    (forall v, bb_score_value (N:=NumR lg) sh g v = py_bb_score_value (N:=NumR lg) sh p v) /\
    bb_score_data (N:=NumR lg) sh g = py_bb_score_data (N:=NumR lg) sh p.
Proof.
  intros lg dl sh l g H. destruct (bb_sim dl sh l g H) as (p & E & A). exists p. split; [exact E|].
  split; [apply A|]. split; [apply A|]. split; [intro v; now apply bb_sv|now apply bb_sd].
Qed.
Print Assumptions C82_bb_flavors.
Example C82_bb_nonvacuous : forall sh : bb_shared R,
  hrun (BB R) 3 sh [HAdd true; HRep false 4; HMerge [HAdd true; HMerge [HRep true 2]; HRem true]; HRem false]
  = Ok (mk_bb 3 3).
Proof. reflexivity. Qed.

(** ** Gamma-Poisson.  The C++ counters wrap at 2^32, Python's do not. *)
Theorem C82_gp_flavors : forall lg dl (sh : gp_shared R) l g, all_values (fun v => (0 <= v)%Z) l ->
  hrun (GP R (N:=NumR lg)) dl sh l = Ok g ->
  exists p, hrun (PyGP R (N:=NumR lg)) dl sh l = Ok p /\
    gp_count g = (pgp_count p mod 4294967296)%Z /\ gp_sum g = (pgp_sum p mod 4294967296)%Z /\
    gp_log_prod g = pgp_log_prod p /\
    ((0 <= pgp_count p < 4294967296)%Z -> (0 <= pgp_sum p < 4294967296)%Z ->
     (forall v, (0 <= v)%Z -> py_gp_score_value (N:=NumR lg) sh p v = Ok (gp_score_value (N:=NumR lg) sh g v)) /\
     gp_score_data (N:=NumR lg) sh g = py_gp_score_data (N:=NumR lg) sh p).
Proof.
  intros lg dl sh l g HV H. destruct (gp_sim lg dl sh l g HV H) as (p & E & A). exists p. split; [exact E|].
  split; [apply A|]. split; [apply A|]. split; [apply A|]. intros H1 H2.
  split; [intros v Hv; now apply gp_sv|now apply gp_sd].
Qed.
Print Assumptions C82_gp_flavors.
(** The Cython flavour, whose counters are int, agrees with Python wherever it is defined. *)
Theorem C82_gp_cython : forall lg, lgamma_like lg -> forall dl (sh : gp_shared R) l p,
  all_values (fun v => (0 <= v <= 2147483647)%Z) l -> hrun (HpGP R (N:=NumR lg)) dl sh l = Ok p ->
  hrun (PyGP R (N:=NumR lg)) dl sh l = Ok p /\
  (forall v, (0 <= v <= 2147483647)%Z ->
     py_gp_score_value (N:=NumR lg) sh p v = Ok (hp_gp_score_value (N:=NumR lg) sh p v)) /\
  hp_gp_score_data (N:=NumR lg) sh p = py_gp_score_data (N:=NumR lg) sh p.
Proof.
  intros lg Hlg dl sh l p HV H. split; [now apply hp_gp_sim|].
  split; [intros v Hv; now apply hp_gp_sv|apply hp_gp_sd].
Qed.
Print Assumptions C82_gp_cython.
Example C82_gp_nonvacuous : forall sh : gp_shared R,
  let l := [HAdd 3; HRep 2 2; HMerge [HAdd 1; HMerge [HAdd 5]]; HRem 3]%Z in
  all_values (fun v => 0 <= v <= 2147483647)%Z l /\
  (exists g, hrun (GP R (N:=NumR lg_witness)) 3 sh l = Ok g /\ gp_count g = 4%Z /\ gp_sum g = 10%Z) /\
  exists p, hrun (HpGP R (N:=NumR lg_witness)) 3 sh l = Ok p /\ pgp_count p = 4%Z /\ pgp_sum p = 10%Z.
Proof.
  intros sh l. split; [unfold l; cbn; lia|]. split; eexists; (split; [reflexivity|]); split; reflexivity.
Qed.

(** ** Beta-negative-binomial *)
Theorem C82_bnb_flavors : forall lg dl (sh : bnb_shared R) l g, hrun (BNB R) dl sh l = Ok g ->
  exists p, hrun (PyBNB R) dl sh l = Ok p /\
    bnb_count g = (pbn_count p mod 4294967296)%Z /\ bnb_sum g = (pbn_sum p mod 4294967296)%Z /\
    ((0 <= pbn_count p < 4294967296)%Z -> (0 <= pbn_sum p < 4294967296)%Z ->
     (forall v, bnb_score_value (N:=NumR lg) sh g v = py_bnb_score_value (N:=NumR lg) sh p v) /\
     bnb_score_data (N:=NumR lg) sh g = py_bnb_score_data (N:=NumR lg) sh p).
Proof.
  intros lg dl sh l g H. destruct (bnb_sim dl sh l g H) as (p & E & A). exists p. split; [exact E|].
  split; [apply A|]. split; [apply A|]. intros H1 H2.
  split; [intros v; now apply bnb_sv|now apply bnb_sd].
Qed.
Print Assumptions C82_bnb_flavors.
Example C82_bnb_nonvacuous : forall sh : bnb_shared R,
  hrun (BNB R) 3 sh [HAdd 3; HRep 2 2; HMerge [HAdd 1; HMerge [HAdd 5]]; HRem 3]%Z = Ok (mk_bnb 4 10).
Proof. reflexivity. Qed.

(** ** Normal-inverse-chi-squared.  Python's division raises where a group would be left empty by
    an addition or a merge; for histories without that the statistics and score_data agree and
    score_value differs by the error of the C++ literal for pi. *)
Theorem C82_nich_flavors : forall lg dl (sh : nich_shared R) l g, never_empty 0 l ->
  hrun (NICH R (N:=NumR lg)) dl sh l = Ok g ->
  exists p, hrun (PyNICH R (N:=NumR lg)) dl sh l = Ok p /\
    ni_count g = pni_count p /\ ni_mean g = pni_mean p /\ ni_ctv g = pni_ctv p /\
    nich_score_data (N:=NumR lg) sh g = py_nich_score_data (N:=NumR lg) sh p /\
    (let post := nich_plus_group (N:=NumR lg) sh g in
     0 < ni_kappa post -> 0 < ni_nu post -> 0 < ni_sigmasq post -> forall v,
     nich_score_value (N:=NumR lg) sh g v =
       py_nich_score_value (N:=NumR lg) PI sh p v + / 2 * (ln PI - ln (314159265358979 / 100000000000000)) /\
     hp_nich_score_value (N:=NumR lg) PI sh p v = py_nich_score_value (N:=NumR lg) PI sh p v).
Proof.
  intros lg dl sh l g HN H. destruct (py_nich_runs lg dl sh l HN) as (q & Eq & _).
  destruct (nich_sim lg dl sh l g H) as [(p & E & A)|X]; [|congruence]. exists p. split; [exact E|].
  split; [apply A|]. split; [apply A|]. split; [apply A|]. split; [now apply nich_sd|].
  intros post H1 H2 H3 v. now apply nich_sv.
Qed.
Print Assumptions C82_nich_flavors.
(** Merging an empty group into an empty group, or adding a value zero times, is fine in C++ (a
    division by zero of floats) and raises ZeroDivisionError in Python. *)
Theorem C82_nich_empty_refuted : forall lg (sh : nich_shared R), exists l1 l2 g1 g2,
  hrun (NICH R (N:=NumR lg)) 3 sh l1 = Ok g1 /\ hrun (PyNICH R (N:=NumR lg)) 3 sh l1 = Fail /\
  hrun (NICH R (N:=NumR lg)) 3 sh l2 = Ok g2 /\ hrun (PyNICH R (N:=NumR lg)) 3 sh l2 = Fail.
Proof.
  intros lg sh. exists [HMerge []], [HRep 5 0%Z]. do 2 eexists. repeat split.
Qed.
Print Assumptions C82_nich_empty_refuted.
Example C82_nich_nonvacuous : forall sh : nich_shared R,
  let l := [HAdd 3; HMerge [HRep 5 2%Z]; HRem 3] in
  never_empty 0 l /\ exists g, hrun (NICH R (N:=NumR lg_witness)) 3 sh l = Ok g.
Proof.
  intros sh l. split; [unfold l; cbn; repeat split; lia|]. eexists. reflexivity.
Qed.

(** ** Dirichlet-discrete *)
Theorem C82_dd_flavors : forall lg dl (sh : dd_shared R) l g, hrun (DD R) dl sh l = Ok g ->
  hrun (PyDD R) dl sh l = Ok (dd_counts g) /\ hrun (HpDD R) dl sh l = Ok (dd_counts g) /\
  (forall v s, dd_score_value (N:=NumR lg) dl sh g v = Ok s ->
     py_dd_score_value (N:=NumR lg) sh (dd_counts g) v = Ok s /\
     hp_dd_score_value (N:=NumR lg) sh (dd_counts g) v = Ok s) /\
  (merge_free l -> dd_score_data (N:=NumR lg) sh g = py_dd_score_data (N:=NumR lg) sh (dd_counts g)) /\
  (forall s, hp_dd_score_data (N:=NumR lg) sh (dd_counts g) = Ok s -> py_dd_score_data (N:=NumR lg) sh (dd_counts g) = Ok s).
Proof.
  intros lg dl sh l g H. destruct (dd_hp_sim dl sh l g H) as (A & B & L).
  split; [exact B|]. split; [exact A|]. split; [intros v s; now apply dd_sv|].
  split; [intro HM; now apply (dd_sd_merge_free lg dl sh l)|]. intros s. now apply hp_sd.
Qed.
Print Assumptions C82_dd_flavors.
(** After a merge the C++ score_data uses a stale total: the three flavours no longer agree. *)
Theorem C82_dd_merged_score_data_refuted : exists (sh : dd_shared R) l g, hrun (DD R) 3 sh l = Ok g /\
  forall lg, lgamma_like lg -> exists s t, dd_score_data (N:=NumR lg) sh g = Ok s /\
    py_dd_score_data (N:=NumR lg) sh (dd_counts g) = Ok t /\
    hp_dd_score_data (N:=NumR lg) sh (dd_counts g) = Ok t /\ s <> t.
Proof.
  exists (mk_dd_shared [1; 1]), [HMerge [HAdd 0%Z]], (mk_dd [1; 0]%Z 0). split; [reflexivity|].
  intros lg Hlg. cbn [dd_counts].
  assert (E : hp_dd_score_data (N:=NumR lg) (mk_dd_shared [1; 1]) [1; 0]%Z =
    Ok (0 + (lg (1 + 1) - lg 1) + (lg (1 + 0) - lg 1) + lg (0 + 1 + 1) - lg (0 + 1 + 1 + 1))) by reflexivity.
  do 2 eexists. split; [reflexivity|]. split; [apply hp_sd; [reflexivity|exact E]|]. split; [exact E|]. cbn.
  replace (0 + 1 + 1 + 0) with 2 by lra. replace (0 + 1 + 1) with 2 by lra.
  rewrite (lg_succ _ Hlg 2) by lra. replace (1 + 0) with 1 by lra.
  intro X. assert (0 < ln 2) by (rewrite <- ln_1; apply ln_increasing; lra). lra.
Qed.
Print Assumptions C82_dd_merged_score_data_refuted.
Example C82_dd_nonvacuous : let sh := mk_dd_shared [1; 2; 3] in
  hrun (DD R) 3 sh [HAdd 2; HRep 1 4; HRem 2; HMerge [HAdd 0; HAdd 2]]%Z = Ok (mk_dd [1; 4; 1] 4)%Z /\
  merge_free [HAdd 2; HRep 1 4; HRem 2]%Z /\ hrun (DD R) 3 sh [HAdd 2; HRep 1 4; HRem 2]%Z = Ok (mk_dd [0; 4; 0] 4)%Z.
Proof. split; [reflexivity|]. split; [repeat constructor|reflexivity]. Qed.

(** ** Normal-inverse-Wishart: the sums agree; the scores differ by the error of the C++ literal
    for log pi (whatever determinant and inverse the two linear-algebra libraries share). *)
Theorem C82_niw_flavors : forall lg dl (sh : niw_shared R) l g, hrun (NIW R (N:=NumR lg)) dl sh l = Ok g ->
  hrun (PyNIW R (N:=NumR lg)) dl sh l = Ok g /\
  let gap := ln PI - 11447298858494002 / 10000000000000000 in
  forall det inv,
  ((0 <= nw_count g * Z.of_nat (niw_dim sh) < 4294967296)%Z -> forall s,
     niw_score_data (N:=NumR lg) det dl sh g = Ok s ->
     py_niw_score_data (N:=NumR lg) det PI sh g = Ok (s - IZR (nw_count g) * INR (niw_dim sh) / 2 * gap)) /\
  (forall post, niw_plus_group (N:=NumR lg) dl sh g = Ok post -> 0 < nw_nu post - INR (niw_dim sh) + 1 -> forall v s,
     niw_score_value (N:=NumR lg) det inv dl sh g v = Ok s ->
     py_niw_score_value (N:=NumR lg) det inv PI sh g v = Ok (s - INR (length v) / 2 * gap)).
Proof.
  intros lg dl sh l g H. split; [now apply niw_sim|]. intros gap det inv. split.
  - intros Hw s Hs. destruct (niw_sd lg det dl sh g s Hw Hs) as (t & -> & E). f_equal. unfold niw_gap in E. fold gap in E. lra.
  - intros post Hp Hn v s Hs. destruct (niw_sv lg det inv dl sh g v s post Hp Hn Hs) as (t & -> & E).
    f_equal. unfold niw_gap in E. fold gap in E. lra.
Qed.
Print Assumptions C82_niw_flavors.
Example C82_niw_nonvacuous : let sh := mk_niw_shared [0] 1 [[1]] 3 in
  exists g post s t, hrun (NIW R (N:=NumR lg_witness)) 3 sh [HAdd [2]; HMerge [HAdd [5]]] = Ok g /\
    nw_count g = 2%Z /\ niw_plus_group (N:=NumR lg_witness) 3 sh g = Ok post /\ 0 < nw_nu post - INR (niw_dim sh) + 1 /\
    niw_score_data (N:=NumR lg_witness) (fun _ => 1) 3 sh g = Ok s /\
    niw_score_value (N:=NumR lg_witness) (fun _ => 1) (fun m => m) 3 sh g [1] = Ok t.
Proof.
  do 4 eexists. split; [reflexivity|]. split; [reflexivity|]. split; [reflexivity|]. split; [lazy -[Rplus Rminus Rmult Rlt IZR INR]; simpl INR; lra|]. split; reflexivity.
Qed.

(** ** Dirichlet-process-discrete *)
Theorem C82_dpd_flavors : forall lg dl (sh : dpd_shared R) l g, (1 <= dl)%nat -> hrun (DPD R) dl sh l = Ok g ->
  exists p, hrun (PyDPD R) dl sh l = Ok p /\ cmap g = pdp_counts p /\ ctotal g = Some (pdp_total p) /\
    ((forall k c, cmap g !! k = Some c -> (0 <= c)%Z) ->
     (forall v s, dpd_score_value (N:=NumR lg) dl sh g v = Ok s -> py_dpd_score_value (N:=NumR lg) sh p v = Ok s) /\
     ((0 <= pdp_total p < 18446744073709551616)%Z -> dp_betas sh <> ∅ -> forall oc op,
      Permutation oc (map_to_list (cmap g)) -> Permutation op (map_to_list (pdp_counts p)) ->
      exists s, dpd_score_data (N:=NumR lg) dl sh g oc = Ok s /\ py_dpd_score_data (N:=NumR lg) sh p op = Ok s)).
Proof.
  intros lg dl sh l g Hd H. destruct (dpd_sim dl sh l g H) as [(p & E & A)|[X _]]; [|lia].
  exists p. split; [exact E|]. split; [apply A|]. split; [apply A|]. intro Hc. rewrite (proj1 A) in Hc. split.
  - intros v s Hs. apply (dpd_sv_total lg dl sh g p v s A Hs). apply Hc.
  - intros Ht Hb oc op H1 H2. apply (dpd_sd lg dl sh g p oc op A H1 H2 Ht Hb). intros k c Hk. split; [now apply (Hc k)|].
    destruct A as (_ & _ & K). apply (K Hd k c Hk).
Qed.
Print Assumptions C82_dpd_flavors.
Definition C82_shared : dpd_shared R :=
  mk_dpd_shared 1 1 (1 / 2) ({[ 0%Z := 1 / 4; 7%Z := 1 / 4 ]} : gmap Z R) (mk_counter {[ 0%Z := 1%Z; 7%Z := 1%Z ]} (Some 2%Z)).
Example C82_dpd_nonvacuous :
  exists g, hrun (DPD R) 3 C82_shared [HAdd 0; HRep 7 3; HRem 0; HMerge [HAdd 0; HAdd 7]]%Z = Ok g /\
    map_to_list (cmap g) ≡ₚ [(0, 1); (7, 4)]%Z.
Proof. eexists. split; [reflexivity|]. vm_compute. apply perm_swap || reflexivity. Qed.

(** Adding to and removing from a shared.  C++ keeps beta0 at least 1e-6 and at most 1, Python does
    not; while neither bound is reached the two agree, and the relation is kept. *)
Definition same_shared (sh : dpd_shared R) (p : py_dps R) : Prop :=
  dp_gamma sh = pds_gamma p /\ dp_alpha sh = pds_alpha p /\ dp_beta0 sh = pds_beta0 p /\
  dp_betas sh = pds_betas p /\ cmap (dp_counts sh) = pds_counts p /\
  (forall k c, pds_counts p !! k = Some c -> (0 < c)%Z) /\
  (forall k, is_Some (pds_counts p !! k) <-> is_Some (pds_betas p !! k)).
Theorem C82_dpd_shared_add : forall lg dl sh p v u sh', same_shared sh p -> v <> OTHER ->
  dps_add (N:=NumR lg) dl sh v u = Ok sh' -> 1 / 1000000 <= dp_beta0 sh - dp_beta0 sh * u ->
  exists p', py_dps_add (N:=NumR lg) p v u = Ok p' /\ same_shared sh' p'.
Proof. exact dps_add_rel. Qed.
Print Assumptions C82_dpd_shared_add.
Theorem C82_dpd_shared_remove : forall lg dl sh p v sh', same_shared sh p -> v <> OTHER ->
  dps_remove (N:=NumR lg) dl sh v = Ok sh' -> is_Some (dp_betas sh !! v) ->
  (forall b, dp_betas sh !! v = Some b -> dp_beta0 sh + b <= 1) ->
  exists p', py_dps_remove (N:=NumR lg) p v = Ok p' /\ same_shared sh' p'.
Proof. exact dps_remove_rel. Qed.
Print Assumptions C82_dpd_shared_remove.
Example C82_dpd_shared_nonvacuous :
  same_shared C82_shared (mk_py_dps 1 1 (1 / 2) ({[ 0%Z := 1 / 4; 7%Z := 1 / 4 ]} : gmap Z R) ({[ 0%Z := 1%Z; 7%Z := 1%Z ]} : gmap Z Z)) /\
  (exists sh', dps_remove (N:=NumR lg_witness) 3 C82_shared 7 = Ok sh') /\
  (exists sh', dps_add (N:=NumR lg_witness) 3 C82_shared 9 (1 / 2) = Ok sh') /\
  1 / 1000000 <= dp_beta0 C82_shared - dp_beta0 C82_shared * (1 / 2).
Proof.
  split; [|split; [|split]].
  - repeat (split; [reflexivity|]). unfold C82_shared. cbn [pds_counts pds_betas]. split.
    + intros k c Hk. destruct (decide (k = 0%Z)) as [->|]; [rewrite lookup_insert in Hk; injection Hk; lia|].
      rewrite lookup_insert_ne in Hk by congruence. destruct (decide (k = 7%Z)) as [->|]; [rewrite lookup_singleton in Hk; injection Hk; lia|].
      rewrite lookup_singleton_ne in Hk by congruence. discriminate.
    + intro k. destruct (decide (k = 0%Z)) as [->|]; [rewrite !lookup_insert; split; eauto|].
      rewrite !lookup_insert_ne by congruence. destruct (decide (k = 7%Z)) as [->|]; [rewrite !lookup_singleton; split; eauto|].
      rewrite !lookup_singleton_ne by congruence. split; intros []; discriminate.
  - eexists. reflexivity.
  - unfold dps_add. cbn [dassert_at dassert obind negb]. eexists. cbn. unfold rltb. destruct (Rlt_dec 0 (1 / 2)); [|lra]. reflexivity.
  - cbn. lra.
Qed.
(** At the bound they part. *)
Theorem C82_dpd_shared_clamp_refuted : forall lg, exists sh p v u sh' p', same_shared sh p /\
  dps_add (N:=NumR lg) 3 sh v u = Ok sh' /\ py_dps_add (N:=NumR lg) p v u = Ok p' /\ 0 < u < 1 /\
  dp_beta0 sh' <> pds_beta0 p'.
Proof.
  intro lg. set (b := 1 / 1000000).
  exists (mk_dpd_shared 1 1 b ∅ (mk_counter ∅ (Some 0%Z))), (mk_py_dps 1 1 b ∅ ∅), 5%Z, (1 / 2).
  eexists (mk_dpd_shared 1 1 (fmax (N:=NumR lg) (min_beta (N:=NumR lg)) (b - b * (1 / 2))) _ _), _. split.
  { repeat (split; [reflexivity|]). cbn [pds_counts pds_betas]. split; [intros k c Hk; now rewrite lookup_empty in Hk|].
    intro k. rewrite !lookup_empty. split; intros []; discriminate. }
  split.
  { unfold dps_add. cbn [dassert_at dassert obind negb]. cbn. unfold rltb at 1. destruct (Rlt_dec 0 b) as [_|X]; [|unfold b in X; lra].
    reflexivity. }
  split; [reflexivity|]. split; [lra|]. cbn [dp_beta0 pds_beta0]. unfold fmax, min_beta. cbn. unfold rltb.
  destruct (Rlt_dec (1 / 1000000) (b - b * (1 / 2))) as [X|_]; [unfold b in X; lra|].
  destruct (Rlt_dec 0 (b - b * (1 / 2))) as [_|X]; unfold b in *; lra.
Qed.
Print Assumptions C82_dpd_shared_clamp_refuted.

(** ** Low-entropy clustering: Python 2 divides dataset_size by sample_size as integers *)
Theorem C82_low_entropy_flavors_partial : forall lg dl N n e s, (0 <= n < N)%Z -> (0 < e)%Z ->
  (forall gs ne, (gs <> 0 \/ n + 1 = N \/ (n + 1 | N))%Z ->
     le_score_add (N:=NumR lg) dl N gs ne n e = Ok s -> py_le_score_add (N:=NumR lg) N gs n e = Ok s) /\
  (forall gs ne, (0 < n)%Z -> (gs <> 1 \/ n + 1 = N \/ (n + 1 | N))%Z ->
     le_score_remove (N:=NumR lg) dl N gs ne n e = Ok s -> py_le_score_remove (N:=NumR lg) N gs n e = Ok s).
Proof.
  intros lg dl N n e s Hn He. split; intros gs ne.
  - now apply le_sa.
  - intros Hn'. apply le_sr; [lia|exact He].
Qed.
Print Assumptions C82_low_entropy_flavors_partial.
Theorem C82_low_entropy_counts_partial : forall lg dl (table : list R) N cs s,
  let n := fold_left Z.add cs 0%Z in
  cs <> [] -> (Z.of_nat (length cs) <= 2 ^ 64)%Z -> (n = N \/ 0 < n /\ (n | N))%Z ->
  le_score_counts (N:=NumR lg) dl table N cs = Ok s -> py_le_score_counts (N:=NumR lg) table N cs = Ok s.
Proof. exact le_sc. Qed.
Print Assumptions C82_low_entropy_counts_partial.
Theorem C82_low_entropy_flavors_refuted : forall lg, exists s t,
  le_score_add (N:=NumR lg) 3 3 0 1 1 1 = Ok s /\ py_le_score_add (N:=NumR lg) 3 0 1 1 = Ok t /\ s <> t.
Proof.
  intro lg. do 2 eexists. split; [reflexivity|]. split; [reflexivity|]. cbn. change (1 + 1)%Z with 2%Z. change (3 `div` 2)%Z with 1%Z. rewrite ln_1.
  assert (0 < ln (3 / 2)) by (rewrite <- ln_1; apply ln_increasing; lra). intro X.
  assert (0 < ln (3 / 2) * (45 / 100 - 1 / 10 / 2 - 1 / 10 / 3)) by (apply Rmult_lt_0_compat; lra). lra.
Qed.
Print Assumptions C82_low_entropy_flavors_refuted.
Example C82_low_entropy_nonvacuous :
  (exists s, le_score_add (N:=NumR lg_witness) 3 10 0 2 4 1 = Ok s) /\ (4 + 1 | 10)%Z /\
  (exists s, le_score_add (N:=NumR lg_witness) 3 10 3 2 4 1 = Ok s) /\
  (exists s, le_score_counts (N:=NumR lg_witness) 3 (repeat 0 48) 10 [2; 3]%Z = Ok s).
Proof.
  split; [eexists; reflexivity|]. split; [now exists 2%Z|]. split; eexists; reflexivity.
Qed.

(** ** scores_to_probs *)
Theorem C82_scores_to_probs : forall lg l, l <> [] ->
  py_scores_to_probs (N:=NumR lg) l = scores_to_probs (N:=NumR lg) l.
Proof. exact py_probs. Qed.
Print Assumptions C82_scores_to_probs.
Example C82_scores_to_probs_nonvacuous : [0; 1; 2] <> ([] : list R).
Proof. discriminate. Qed.
