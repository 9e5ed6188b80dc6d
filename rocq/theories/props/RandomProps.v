(** Properties C43-C46 and C55: sampling and score normalisation.
    Every random draw is a universally quantified argument. *)
From Coq Require Import Reals Lra.
From Verif.model Require Import Base Num NumR VectorMath Random.
From Verif.spec Require Import RandomSpec PartitionSpec.
From Verif.proof Require Import RandomProof.

(** C43: in every arithmetic (NaN included) the index is in range. *)
Theorem C43_discrete_in_range : forall (F : Type) (N : Num F) (u : F) ps, ps <> [] ->
  exists i, sample_discrete u ps = Ok i /\ i < length ps.
Proof. intros F N. exact (@sample_discrete_range F N). Qed.
Print Assumptions C43_discrete_in_range.

Theorem C43_likelihoods_in_range : forall (F : Type) (N : Num F) (u : F) ls total, ls <> [] ->
  (exists i, sample_from_likelihoods u ls total = Ok i /\ i < length ls) /\
  (exists i, sample_from_likelihoods_sum u ls = Ok i /\ i < length ls) /\
  (exists i, sample_from_probs u ls = Ok i /\ i < length ls) /\
  (exists i l, sample_from_scores_overwrite u ls = Ok (i, l) /\ i < length ls /\ length l = length ls).
Proof.
  intros F N u ls total H. split; [|split; [|split]];
  [exact (sample_likelihoods_range u ls total H)|exact (sample_likelihoods_sum_range u ls H)
  |exact (sample_likelihoods_range u ls (nof 1) H)|exact (sample_scores_range u ls H)].
Qed.
Print Assumptions C43_likelihoods_in_range.

Theorem C43_empty_is_an_error : forall (F : Type) (N : Num F) (u total : F),
  sample_discrete u [] = Fail /\ sample_from_likelihoods u [] total = Fail /\
  sample_from_likelihoods_sum u [] = Fail.
Proof. intros F N. exact (@sample_empty F N). Qed.
Print Assumptions C43_empty_is_an_error.

Local Open Scope R_scope.

(** C43: exact arithmetic, inverse CDF. *)
Theorem C43_discrete_is_inverse_cdf : forall lg u ps i,
  ps <> [] -> List.Forall (fun x => 0 <= x) ps -> rsum ps = 1 -> 0 <= u < 1 ->
  (sample_discrete (N := NumR lg) u ps = Ok i <-> (i < length ps)%nat /\ cum ps i <= u < cum ps (S i)).
Proof. exact discrete_cdf. Qed.
Print Assumptions C43_discrete_is_inverse_cdf.

Theorem C43_likelihoods_is_inverse_cdf : forall lg u ls i,
  ls <> [] -> List.Forall (fun x => 0 <= x) ls -> 0 <= u < 1 ->
  (sample_from_likelihoods_sum (N := NumR lg) u ls = Ok i <->
   (i < length ls)%nat /\ (i <> O -> cum ls i < rsum ls * u) /\ rsum ls * u <= cum ls (S i)) /\
  (sample_from_likelihoods (N := NumR lg) u ls (rsum ls) = Ok i <->
   (i < length ls)%nat /\ (i <> O -> cum ls i < rsum ls * u) /\ rsum ls * u <= cum ls (S i)).
Proof. intros lg u ls i H1 H2 H3. split; [apply likelihoods_sum_cdf|apply likelihoods_cdf]; auto. Qed.
Print Assumptions C43_likelihoods_is_inverse_cdf.

(** From scores: inverse CDF of the normalised probabilities exp(score) / sum exp. *)
Theorem C43_scores_is_inverse_cdf : forall lg u l i, l <> [] -> 0 <= u < 1 ->
  ((exists l', sample_from_scores_overwrite (N := NumR lg) u l = Ok (i, l')) <->
   (i < length l)%nat /\
   (i <> O -> cum (map (fun s => exp (s - log_normaliser l)) l) i < u) /\
   u <= cum (map (fun s => exp (s - log_normaliser l)) l) (S i)).
Proof. exact sample_scores_cdf. Qed.
Print Assumptions C43_scores_is_inverse_cdf.

Example C43_nonvacuous : exists ps : list R,
  ps <> [] /\ List.Forall (fun x => 0 <= x) ps /\ rsum ps = 1 /\ (2 < length ps)%nat /\
  cum ps 1 <= / 2 < cum ps 2.
Proof.
  exists [/ 4; / 2; / 4]. split; [discriminate|]. split; [repeat constructor; lra|].
  unfold cum. simpl. split; [lra|]. split; [apply Nat.lt_succ_diag_r|lra].
Qed.

(** C44 *)
Theorem C44_pair_distinct : forall (T : Type) (urn : list T) f1 f2,
  (f1 < length urn)%nat -> (f2 < length urn - 1)%nat ->
  exists a b p q, sample_pair_from_urn f1 f2 urn = Ok (a, b) /\ p <> q /\
    nth_error urn p = Some a /\ nth_error urn q = Some b.
Proof. intros T. exact (@pair_distinct T). Qed.
Print Assumptions C44_pair_distinct.

(** Each ordered pair of distinct elements comes from exactly one pair of draws. *)
Theorem C44_pair_uniform : forall (T : Type) (urn : list T) a b,
  NoDup urn -> In a urn -> In b urn -> a <> b ->
  exists! f, (fst f < length urn /\ snd f < length urn - 1)%nat /\
    sample_pair_from_urn (fst f) (snd f) urn = Ok (a, b).
Proof. intros T. exact (@pair_unique T). Qed.
Print Assumptions C44_pair_uniform.

(** sample_from_urn: every draw below the size gives an element, and each one comes from exactly one draw. *)
Theorem C44_urn_uniform : forall (T : Type) (urn : list T),
  (forall i, (i < length urn)%nat -> exists a, sample_from_urn i urn = Ok a /\ In a urn) /\
  (forall a, NoDup urn -> In a urn -> exists! i, (i < length urn)%nat /\ sample_from_urn i urn = Ok a).
Proof. intro T. exact (@urn_unique T). Qed.
Print Assumptions C44_urn_uniform.

Example C44_nonvacuous : NoDup [7; 8; 9]%nat /\ In 9%nat [7; 8; 9]%nat /\ In 7%nat [7; 8; 9]%nat /\ 9%nat <> 7%nat /\
  sample_pair_from_urn 2 0 [7; 8; 9]%nat = Ok (9, 7)%nat.
Proof. repeat split; simpl; auto; repeat constructor; simpl; intuition discriminate. Qed.

(** C45.  [src] is the parameter array, or None when the output array is also the input;
    [gam i a] is the gamma draw at index i. *)
Theorem C45_dirichlet_is_probability_vector : forall lg gam alphas l src,
  length alphas = length l -> (src = Some alphas \/ (src = None /\ l = alphas)) ->
  (forall i a, 0 < a -> 0 < gam i a) -> (exists a, In a alphas /\ 0 < a) ->
  exists out, sample_dirichlet (N := NumR lg) gam (length l) src l = Ok out /\
    length out = length alphas /\ rsum out = 1 /\
    (forall i a p, nth_error alphas i = Some a -> nth_error out i = Some p ->
       (0 < a -> 0 < p) /\ (a <= 0 -> p = 0)).
Proof. exact dirichlet_ok. Qed.
Print Assumptions C45_dirichlet_is_probability_vector.

Theorem C45_dirichlet_safe_bounded_below : forall lg gam alphas l src mv,
  length alphas = length l -> alphas <> [] -> (src = Some alphas \/ (src = None /\ l = alphas)) ->
  0 <= mv -> List.Forall (fun a => 0 < a + mv) alphas -> (forall i a, 0 < a -> 0 < gam i a) ->
  exists out, sample_dirichlet_safe (N := NumR lg) gam (length l) src l mv = Ok out /\
    length out = length alphas /\ rsum out = 1 /\
    List.Forall (fun p => mv / (1 + mv * INR (length alphas)) < p) out.
Proof. exact dirichlet_safe_ok. Qed.
Print Assumptions C45_dirichlet_safe_bounded_below.

(** Writing over the input gives the same as writing elsewhere. *)
Theorem C45_dirichlet_in_place : forall lg gam alphas l mv, length alphas = length l ->
  sample_dirichlet (N := NumR lg) gam (length l) (Some alphas) l =
  sample_dirichlet (N := NumR lg) gam (length alphas) None alphas /\
  (0 <= mv -> List.Forall (fun a => 0 < a + mv) alphas ->
   sample_dirichlet_safe (N := NumR lg) gam (length l) (Some alphas) l mv =
   sample_dirichlet_safe (N := NumR lg) gam (length alphas) None alphas mv).
Proof.
  intros lg gam alphas l mv H. split.
  - rewrite (dirichlet_R lg gam alphas l), (dirichlet_R lg gam alphas alphas); auto.
  - intros H1 H2. rewrite (dirichlet_safe_R lg gam alphas l), (dirichlet_safe_R lg gam alphas alphas); auto.
Qed.
Print Assumptions C45_dirichlet_in_place.

Theorem C45_beta_safe_range : forall lg x y u a b mv, 0 <= x -> 0 <= y -> 0 < a -> 0 <= mv ->
  exists p, sample_beta_safe (N := NumR lg) x y u a b mv = Ok p /\ mv / (1 + mv) <= p <= 1.
Proof. exact sample_beta_safe_range. Qed.
Print Assumptions C45_beta_safe_range.

(** Both gamma draws zero (they underflow for small parameters): the outcome is 1 for the uniform draws
    below a / (a + b), the mean of the distribution, and 0 for the others; otherwise it is the share of x. *)
Theorem C45_beta_value : forall lg x y u a b, 0 <= x -> 0 <= y -> 0 < a -> 0 < b ->
  (0 < x + y -> sample_beta (N := NumR lg) x y u a b * (x + y) = x) /\
  (x = 0 -> y = 0 ->
    0 < a / (a + b) < 1 /\
    (u < a / (a + b) -> sample_beta (N := NumR lg) x y u a b = 1) /\
    (a / (a + b) <= u -> sample_beta (N := NumR lg) x y u a b = 0)).
Proof. exact sample_beta_value. Qed.
Print Assumptions C45_beta_value.

Example C45_nonvacuous : exists (gam : nat -> R -> R) alphas,
  (forall i a, 0 < a -> 0 < gam i a) /\ (exists a, In a alphas /\ 0 < a) /\ In 0 alphas /\
  List.Forall (fun a => 0 < a + / 10) alphas.
Proof.
  exists (fun i a => a * (1 + INR i)), [0; / 2; 3]. split.
  - intros i a H. apply Rmult_lt_0_compat; auto. pose proof (pos_INR i). lra.
  - split; [exists 3; simpl; split; [auto|lra]|]. split; [simpl; auto|]. repeat constructor; lra.
Qed.

(** C46 *)
Theorem C46_log_sum_exp : forall lg l, l <> [] ->
  log_sum_exp (N := NumR lg) l = Ok (ln (rsum (map exp l))).
Proof. exact log_sum_exp_ok. Qed.
Print Assumptions C46_log_sum_exp.

(** No scores at all: log_sum_exp answers 0, the logarithm of one, in every arithmetic; the other helpers read the
    first score unchecked and may not be called. *)
Theorem C46_empty : (forall lg, log_sum_exp (N := NumR lg) [] = Ok 0) /\
  (forall F (N : Num F), log_sum_exp (N := N) [] = Ok (nof 0)) /\
  (forall lg, scores_to_likelihoods (N := NumR lg) [] = UB /\ scores_to_probs (N := NumR lg) [] = UB /\
     forall u, sample_from_scores_overwrite (N := NumR lg) u [] = UB).
Proof. split; [reflexivity |]. split; [reflexivity |]. intros lg. repeat split; reflexivity. Qed.
Print Assumptions C46_empty.

Theorem C46_likelihoods : forall lg l, l <> [] -> exists m, is_max l m /\
  scores_to_likelihoods (N := NumR lg) l =
  Ok (map (fun s => exp (s - m)) l, rsum (map (fun s => exp (s - m)) l)).
Proof. exact stl_R. Qed.
Print Assumptions C46_likelihoods.

Theorem C46_probs : forall lg l, l <> [] -> exists ps, scores_to_probs (N := NumR lg) l = Ok ps /\
  ps = map (fun s => exp (s - ln (rsum (map exp l)))) l /\ rsum ps = 1.
Proof. intros lg l H. eexists. split; [exact (scores_to_probs_ok lg l H)|]. split; [reflexivity|exact (probs_sum l H)]. Qed.
Print Assumptions C46_probs.

Theorem C46_shift_invariant : forall lg l c, l <> [] ->
  scores_to_probs (N := NumR lg) (map (fun s => s + c) l) = scores_to_probs (N := NumR lg) l /\
  (exists z, log_sum_exp (N := NumR lg) l = Ok z /\
     log_sum_exp (N := NumR lg) (map (fun s => s + c) l) = Ok (z + c)).
Proof.
  intros lg l c H. assert (H' : map (fun s => s + c) l <> []) by (destruct l; [congruence|discriminate]).
  split.
  - rewrite !scores_to_probs_ok, normaliser_shift, map_map by auto. f_equal. apply map_ext. intro. f_equal. lra.
  - exists (log_normaliser l). rewrite !log_sum_exp_ok, normaliser_shift by auto. auto.
Qed.
Print Assumptions C46_shift_invariant.

Theorem C46_score_of_sample : forall lg l i x, nth_error l i = Some x -> exists z,
  log_sum_exp (N := NumR lg) l = Ok z /\
  score_from_scores_overwrite (N := NumR lg) i l = Ok (x - z).
Proof.
  intros lg l i x H. exists (log_normaliser l). split; [|exact (score_from_scores_ok lg l i x H)].
  apply log_sum_exp_ok. intros ->; destruct i; discriminate.
Qed.
Print Assumptions C46_score_of_sample.

(** The probability returned next to a sample is the normalised probability of that sample. *)
Theorem C46_prob_of_sample : forall lg u l, l <> [] -> exists i x l',
  sample_from_scores_overwrite (N := NumR lg) u l = Ok (i, l') /\ nth_error l i = Some x /\
  sample_prob_from_scores_overwrite (N := NumR lg) u l = Ok (i, exp (x - ln (rsum (map exp l)))).
Proof. exact sample_prob_ok. Qed.
Print Assumptions C46_prob_of_sample.

Example C46_nonvacuous : [ln 2; 0; - 3] <> [] /\ nth_error [ln 2; 0; - 3] 1 = Some 0 /\
  is_max [1; 3; 2] 3.
Proof. split; [discriminate|]. split; [reflexivity|]. split; simpl; auto. intros x [<-|[<-|[<-|[]]]]; lra. Qed.

(** C55: outcomes of weight zero are not sampled ... *)
Theorem C55_discrete_never_zero : forall lg u ps i p,
  ps <> [] -> List.Forall (fun x => 0 <= x) ps -> rsum ps = 1 -> 0 <= u < 1 ->
  sample_discrete (N := NumR lg) u ps = Ok i -> nth_error ps i = Some p -> 0 < p.
Proof. exact discrete_positive. Qed.
Print Assumptions C55_discrete_never_zero.

(** ... except that sample_from_likelihoods does so when the uniform draw is exactly 0, a value
    uniform_real_distribution(0,1) may return. *)
Theorem C55_likelihoods_never_zero_partial : forall lg u ls i p,
  ls <> [] -> List.Forall (fun x => 0 <= x) ls -> 0 < rsum ls -> 0 < u < 1 ->
  sample_from_likelihoods (N := NumR lg) u ls (rsum ls) = Ok i -> nth_error ls i = Some p -> 0 < p.
Proof. exact likelihoods_positive. Qed.
Print Assumptions C55_likelihoods_never_zero_partial.

Theorem C55_likelihoods_never_zero_refuted : forall lg, exists u ls i,
  0 <= u < 1 /\ List.Forall (fun x => 0 <= x) ls /\ rsum ls = 1 /\
  sample_from_likelihoods (N := NumR lg) u ls (rsum ls) = Ok i /\ nth_error ls i = Some 0.
Proof.
  intro lg. exists 0, [0; 1], O. split; [lra|]. split; [repeat constructor; lra|].
  assert (E : rsum [0; 1] = 1) by (simpl; lra). rewrite E. split; [reflexivity|].
  split; [apply likelihoods_zero_chosen|reflexivity].
Qed.
Print Assumptions C55_likelihoods_never_zero_refuted.
