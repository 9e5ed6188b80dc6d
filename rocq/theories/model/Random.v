(** include/distributions/random.hpp and src/random.cc: discrete sampling, urns,
    Dirichlet, score normalisation.  Every random draw is an argument: [u] is the value
    returned by sample_unif01, [g] by sample_gamma, [i] by sample_int. *)
From Verif.model Require Import Base Num VectorMath.

Section Rnd.
  Context {F : Type} {N : Num F}.
  Local Open Scope num_scope.

  (** Loop of sample_discrete, random.hpp:306-311, over probs[0 .. dim-2]. *)
  Fixpoint discrete_loop (i : nat) (t : F) (ps : list F) : option nat :=
    match ps with
    | [] => None
    | p :: ps' => let t' := t - p in if t' <? nof 0 then Some i else discrete_loop (S i) t' ps'
    end.
  (** sample_discrete, random.hpp:300-313 *)
  Definition sample_discrete (u : F) (probs : list F) : outcome nat :=
    let dim := length probs in
    let* _ := dassert (0 <? dim)%nat in
    match discrete_loop 0 u (firstn (dim - 1) probs) with
    | Some i => Ok i
    | None => Ok (dim - 1)%nat
    end.

  (** Loop of sample_from_likelihoods, random.hpp:325-330. *)
  Fixpoint likelihoods_loop (i : nat) (t : F) (ls : list F) : option nat :=
    match ls with
    | [] => None
    | l :: ls' => let t' := t - l in if t' <=? nof 0 then Some i else likelihoods_loop (S i) t' ls'
    end.
  (** sample_from_likelihoods with total, random.hpp:315-333 *)
  Definition sample_from_likelihoods (u : F) (likelihoods : list F) (total : F) : outcome nat :=
    let size := length likelihoods in
    let* _ := dassert (0 <? size)%nat in
    match likelihoods_loop 0 (total * u) likelihoods with
    | Some i => Ok i
    | None => Ok (size - 1)%nat
    end.
  (** sample_from_likelihoods without total, random.hpp:335-341 *)
  Definition sample_from_likelihoods_sum (u : F) (likelihoods : list F) : outcome nat :=
    let* total := vector_sum (length likelihoods) likelihoods in
    sample_from_likelihoods u likelihoods total.
  (** sample_from_probs, random.hpp:343-348 *)
  Definition sample_from_probs (u : F) (probs : list F) : outcome nat :=
    sample_from_likelihoods u probs (nof 1).

  (** sample_from_urn, random.hpp:261-269; [i] = sample_int(0, size-1). *)
  Definition sample_from_urn {T} (i : nat) (urn : list T) : outcome T :=
    let* _ := dassert (1 <=? length urn)%nat in
    let* _ := dassert (i <? length urn)%nat in
    vget urn i.

  (** sample_pair_from_urn, random.hpp:271-285; [f1] = sample_int(0, size-1),
      [f2] = sample_int(0, size-2). *)
  Definition sample_pair_from_urn {T} (f1 f2 : nat) (urn : list T) : outcome (T * T) :=
    let* _ := dassert (2 <=? length urn)%nat in
    let f2 := if (f1 <=? f2)%nat then (f2 + 1)%nat else f2 in
    let* _ := dassert (f1 <? length urn)%nat in
    let* _ := dassert (f2 <? length urn)%nat in
    let* _ := dassert (negb (f1 =? f2)%nat) in
    let* a := vget urn f1 in
    let* b := vget urn f2 in
    Ok (a, b).

  (** x == 0 for floats: false on NaN (random.hpp:105). *)
  Definition iszero (x : F) : bool := (x <=? nof 0) && (nof 0 <=? x).

  (** sample_beta, random.hpp:99-108; draws [x], [y] gamma, [u] uniform. *)
  Definition sample_beta (x y u : F) (alpha beta : F) : F :=
    if iszero x && iszero y
    then if u <? alpha / (alpha + beta) then nof 1 else nof 0
    else x / (x + y).
  (** sample_beta_safe, random.hpp:110-119 *)
  Definition sample_beta_safe (x y u : F) (alpha beta min_value : F) : outcome F :=
    let* _ := dassert (nof 0 <=? min_value) in
    let* _ := dassert (nof 0 <? alpha) in
    let p := sample_beta x y u alpha beta in
    Ok ((p + min_value) / (nof 1 + min_value)).

  (** sample_dirichlet, src/random.cc:35-52.  [gam i a] is the gamma draw made at index
      i with parameter a.  [alphas] and [probs] may be the same array: the model reads
      alphas[i] from [alias] ? probs : alphas at the time of iteration i. *)
  Definition dirichlet_step (gam : nat -> F -> F) (alphas : option (list F))
      (i : nat) (s : list F * F) : outcome (list F * F) :=
    let '(probs, total) := s in
    let* a := vget (match alphas with Some l => l | None => probs end) i in
    if nof 0 <? a then
      let* probs' := vset probs i (gam i a) in Ok (probs', total + gam i a)
    else
      let* probs' := vset probs i (nof 0) in Ok (probs', total).
  (** sample_dirichlet, src/random.cc:35-52 *)
  Definition sample_dirichlet (gam : nat -> F -> F) (dim : nat) (alphas : option (list F)) (probs : list F)
    : outcome (list F) :=
    let* s := vfor 0 dim (dirichlet_step gam alphas) (probs, nof 0) in
    let scale := nof 1 / snd s in
    vfor 0 dim (vupdate (fun _ x => Ok (x * scale))) (fst s).

  (** sample_dirichlet_safe, src/random.cc:54-72 *)
  Definition dirichlet_safe_step (gam : nat -> F -> F) (alphas : option (list F)) (min_value : F)
      (i : nat) (s : list F * F) : outcome (list F * F) :=
    let '(probs, total) := s in
    let* a := vget (match alphas with Some l => l | None => probs end) i in
    let alpha := a + min_value in
    let* _ := dassert (nof 0 <? alpha) in
    let* probs' := vset probs i (gam i alpha) in
    Ok (probs', total + gam i alpha).
  (** sample_dirichlet_safe, src/random.cc:54-72 *)
  Definition sample_dirichlet_safe (gam : nat -> F -> F) (dim : nat) (alphas : option (list F)) (probs : list F)
      (min_value : F) : outcome (list F) :=
    let* _ := dassert (nof 0 <=? min_value) in
    let* s := vfor 0 dim (dirichlet_safe_step gam alphas min_value) (probs, nof 0) in
    let scale := nof 1 / snd s / (nof 1 + min_value * nof (Z.of_nat dim)) in
    let shift := min_value / (nof 1 + min_value * nof (Z.of_nat dim)) in
    vfor 0 dim (vupdate (fun _ x => Ok (x * scale + shift))) (fst s).

  (** log_sum_exp of a vector, src/random.cc:77-92 *)
  Definition log_sum_exp (scores : list F) : outcome F :=
    let size := length scores in
    if (size =? 0)%nat then Ok (nof 0) else
    let* max_score := vector_max size scores in
    let* total := vfor 0 size (fun i total =>
      let* s := vget scores i in Ok (total + nexp (s - max_score))) (nof 0) in
    Ok (nlog total + max_score).

  (** scores_to_likelihoods, src/random.cc:94-106: new vector and returned total *)
  Definition scores_to_likelihoods (scores : list F) : outcome (list F * F) :=
    let size := length scores in
    let* max_score := vector_max size scores in
    vfor 0 size (fun i st =>
      let* s := vget (fst st) i in
      let e := nexp (s - max_score) in
      let* l := vset (fst st) i e in
      Ok (l, snd st + e)) (scores, nof 0).

  (** scores_to_probs, random.hpp:354-358 *)
  Definition scores_to_probs (scores : list F) : outcome (list F) :=
    let* st := scores_to_likelihoods scores in
    vector_scale (length scores) (fst st) (nof 1 / snd st).

  (** sample_from_scores_overwrite, random.hpp:360-366; returns the index and the
      overwritten vector.  sample_from_scores, 386-392, is the same on a copy. *)
  Definition sample_from_scores_overwrite (u : F) (scores : list F) : outcome (nat * list F) :=
    let* st := scores_to_likelihoods scores in
    let* i := sample_from_likelihoods u (fst st) (snd st) in
    Ok (i, fst st).

  (** sample_prob_from_scores_overwrite, random.hpp:368-376 *)
  Definition sample_prob_from_scores_overwrite (u : F) (scores : list F) : outcome (nat * F) :=
    let* st := scores_to_likelihoods scores in
    let* i := sample_from_likelihoods u (fst st) (snd st) in
    let* x := vget (fst st) i in
    Ok (i, x / snd st).

  (** score_from_scores_overwrite, src/random.cc:108-128 (log is taken as fast_log) *)
  Definition score_from_scores_overwrite (sample : nat) (scores : list F) : outcome F :=
    let size := length scores in
    let* max_score := vector_max size scores in
    let* st := vfor 0 size (fun i st =>
      let* s := vget (fst st) i in
      let s' := s - max_score in
      let* l := vset (fst st) i s' in
      Ok (l, snd st + nexp s')) (scores, nof 0) in
    let* x := vget (fst st) sample in
    Ok (x - nlog (snd st)).
End Rnd.
