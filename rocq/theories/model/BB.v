(** BetaBernoulli, include/distributions/models/bb.hpp. *)
From Verif.model Require Import Base Packed Num VectorMath Component Slave.

Section BB.
  Context {F : Type} {N : Num F}.
  Local Open Scope num_scope.

  (** Shared, bb.hpp:54-56 *)
  Record bb_shared := mk_bb_shared { bb_alpha : F; bb_beta : F }.

  (** Group, bb.hpp:79-81; count_t is int (bb.hpp:42). *)
  Record bb_group := mk_bb { bb_heads : Z; bb_tails : Z }.

  (** Group::init, bb.hpp:95-100 *)
  Definition bb_init (_ : bb_shared) : bb_group := mk_bb 0 0.
  (** (value ? heads : tails) += n, bb.hpp:106 / 114 / 121 *)
  Definition bb_bump (g : bb_group) (v : bool) (n : Z) : outcome bb_group :=
    if v then let* h := i32 (bb_heads g + n) in Ok (mk_bb h (bb_tails g))
    else let* t := i32 (bb_tails g + n) in Ok (mk_bb (bb_heads g) t).
  (** add_value, bb.hpp:102-107 *)
  Definition bb_add (_ : nat) (_ : bb_shared) (g : bb_group) (v : bool) := bb_bump g v 1.
  (** add_repeated_value, bb.hpp:109-115 *)
  Definition bb_rep (_ : nat) (_ : bb_shared) (g : bb_group) (v : bool) (n : Z) := bb_bump g v n.
  (** remove_value, bb.hpp:117-122 *)
  Definition bb_rem (_ : nat) (_ : bb_shared) (g : bb_group) (v : bool) := bb_bump g v (-1).
  (** merge, bb.hpp:124-130 *)
  Definition bb_merge (_ : nat) (_ : bb_shared) (g src : bb_group) : outcome bb_group :=
    let* h := i32 (bb_heads g + bb_heads src) in
    let* t := i32 (bb_tails g + bb_tails src) in
    Ok (mk_bb h t).

  (** struct Group, bb.hpp:79-161 *)
  Definition BB : component := {|
    shared_t := bb_shared; group_t := bb_group; value_t := bool;
    c_init := bb_init; c_add := bb_add; c_rep := bb_rep; c_rem := bb_rem; c_merge := bb_merge |}.

  (** Scorer, bb.hpp:185-205: (heads_score, tails_score) *)
  Definition bb_scorer_init (sh : bb_shared) (g : bb_group) : F * F :=
    let alpha := bb_alpha sh + nof (bb_heads g) in
    let beta := bb_beta sh + nof (bb_tails g) in
    (nlog (alpha / (alpha + beta)), nlog (beta / (alpha + beta))).
  (** Scorer::eval, bb.hpp:199-204 *)
  Definition bb_scorer_eval (s : F * F) (v : bool) : F := if v then fst s else snd s.

  (** Group::score_value, bb.hpp:132-139 *)
  Definition bb_score_value (sh : bb_shared) (g : bb_group) (v : bool) : F :=
    bb_scorer_eval (bb_scorer_init sh g) v.

  (** Group::score_data, bb.hpp:141-152 *)
  Definition bb_score_data (sh : bb_shared) (g : bb_group) : F :=
    let alpha := bb_alpha sh + nof (bb_heads g) in
    let beta := bb_beta sh + nof (bb_tails g) in
    let score := nof 0 in
    let score := score + (nlgamma alpha - nlgamma (bb_alpha sh)) in
    let score := score + (nlgamma beta - nlgamma (bb_beta sh)) in
    score + (nlgamma (bb_alpha sh + bb_beta sh) - nlgamma (alpha + beta)).

  (** MixtureDataScorer::score_data, bb.hpp:209-228 *)
  Definition bb_mixture_score_data (sh : bb_shared) (gs : list bb_group) : F :=
    let shared_part :=
      (nlgamma (bb_alpha sh + bb_beta sh) - nlgamma (bb_alpha sh)) - nlgamma (bb_beta sh) in
    fold_left (fun score g =>
      let alpha := bb_alpha sh + nof (bb_heads g) in
      let beta := bb_beta sh + nof (bb_tails g) in
      let group_part := (nlgamma alpha + nlgamma beta) - nlgamma (alpha + beta) in
      score + (shared_part + group_part)) gs (nof 0).

  (** MixtureValueScorer, bb.hpp:231-325 *)
  Record bb_vs := mk_bb_vs { bb_hs : list F; bb_ts : list F }.
  (** resize, bb.hpp:232-235 *)
  Definition bb_vs_resize (_ : nat) (_ : bb_shared) (t : bb_vs) (n : nat) : outcome bb_vs :=
    Ok (mk_bb_vs (vec_resize (nof 0) (bb_hs t) n) (vec_resize (nof 0) (bb_ts t) n)).
  (** add_group, bb.hpp:237-240 *)
  Definition bb_vs_add_group (_ : nat) (_ : bb_shared) (t : bb_vs) : outcome bb_vs :=
    Ok (mk_bb_vs (packed_add (bb_hs t) (nof 0)) (packed_add (bb_ts t) (nof 0))).
  (** remove_group, bb.hpp:242-245 *)
  Definition bb_vs_remove_group (dl : nat) (_ : bb_shared) (t : bb_vs) (i : nat) : outcome bb_vs :=
    let* h := packed_remove dl (bb_hs t) i in
    let* u := packed_remove dl (bb_ts t) i in
    Ok (mk_bb_vs h u).
  (** update_group, bb.hpp:247-256 *)
  Definition bb_vs_update_group (_ : nat) (sh : bb_shared) (t : bb_vs) (i : nat) (g : bb_group) : outcome bb_vs :=
    let s := bb_scorer_init sh g in
    let* h := vset (bb_hs t) i (fst s) in
    let* u := vset (bb_ts t) i (snd s) in
    Ok (mk_bb_vs h u).
  (** add_value, bb.hpp:258-265; remove_value, 267-274 *)
  Definition bb_vs_value (dl : nat) (sh : bb_shared) (t : bb_vs) (i : nat) (g : bb_group) (_ : bool) :=
    bb_vs_update_group dl sh t i g.
  (** update_all, bb.hpp:276-292 *)
  Definition bb_vs_update_all (_ : nat) (sh : bb_shared) (t : bb_vs) (gs : list bb_group) : outcome bb_vs :=
    let n := length gs in
    let h := vec_resize (nof 0) (bb_hs t) n in
    let u := vec_resize (nof 0) (bb_ts t) n in
    let* hu := vfor 0 n (fun i (hu : list F * list F) =>
      let* g := vget gs i in
      let heads := bb_alpha sh + nof (bb_heads g) in
      let tails := bb_beta sh + nof (bb_tails g) in
      let* h' := vset (fst hu) i (heads / (heads + tails)) in
      let* u' := vset (snd hu) i (tails / (heads + tails)) in
      Ok (h', u')) (h, u) in
    let* h := vector_log_io n (fst hu) in
    let* u := vector_log_io n (snd hu) in
    Ok (mk_bb_vs h u).
  (** score_value_group, bb.hpp:294-301 *)
  Definition bb_vs_score_group (_ : nat) (_ : bb_shared) (t : bb_vs) (_ : list bb_group) (i : nat) (v : bool) : outcome F :=
    if v then vget (bb_hs t) i else vget (bb_ts t) i.
  (** score_value, bb.hpp:303-313 *)
  Definition bb_vs_score (_ : nat) (_ : bb_shared) (t : bb_vs) (_ : list bb_group) (v : bool) (accum : list F) : outcome (list F) :=
    vector_add (length accum) accum (if v then bb_hs t else bb_ts t).

  (** MixtureValueScorer, bb.hpp:231-325 *)
  Definition bb_vscorer : vscorer BB F := {|
    vs_t := bb_vs;
    vs_resize := bb_vs_resize : nat -> shared_t BB -> bb_vs -> nat -> outcome bb_vs;
    vs_add_group := bb_vs_add_group : nat -> shared_t BB -> bb_vs -> outcome bb_vs;
    vs_remove_group := bb_vs_remove_group : nat -> shared_t BB -> bb_vs -> nat -> outcome bb_vs;
    vs_update_group := bb_vs_update_group : nat -> shared_t BB -> bb_vs -> nat -> group_t BB -> outcome bb_vs;
    vs_add_value := bb_vs_value : nat -> shared_t BB -> bb_vs -> nat -> group_t BB -> value_t BB -> outcome bb_vs;
    vs_remove_value := bb_vs_value : nat -> shared_t BB -> bb_vs -> nat -> group_t BB -> value_t BB -> outcome bb_vs;
    vs_update_all := bb_vs_update_all : nat -> shared_t BB -> bb_vs -> list (group_t BB) -> outcome bb_vs;
    vs_score_group := bb_vs_score_group : nat -> shared_t BB -> bb_vs -> list (group_t BB) -> nat -> value_t BB -> outcome F;
    vs_score := bb_vs_score : nat -> shared_t BB -> bb_vs -> list (group_t BB) -> value_t BB -> list F -> outcome (list F) |}.
End BB.
Arguments bb_shared : clear implicits.
Arguments bb_vs : clear implicits.
Arguments BB : clear implicits.
