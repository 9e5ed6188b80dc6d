(** BetaNegativeBinomial, include/distributions/models/bnb.hpp. *)
From Verif.model Require Import Base Packed Num VectorMath Component Slave.

Section BNB.
  Context {F : Type} {N : Num F}.
  Local Open Scope num_scope.

  (** Shared, bnb.hpp:52-55 *)
  Record bnb_shared := mk_bnb_shared { bnb_alpha : F; bnb_beta : F; bnb_r : Z }.
  (** Group, bnb.hpp:89-91, both uint32_t; a value is a uint32_t (41). *)
  Record bnb_group := mk_bnb { bnb_count : Z; bnb_sum : Z }.

  (** Shared::plus_group, bnb.hpp:57-63 *)
  Definition bnb_plus_group (sh : bnb_shared) (g : bnb_group) : bnb_shared :=
    mk_bnb_shared (bnb_alpha sh + nof (bnb_r sh) * nof (bnb_count g)) (bnb_beta sh + nof (bnb_sum g)) (bnb_r sh).

  (** Group::init, bnb.hpp:105-108 *)
  Definition bnb_init (_ : bnb_shared) : bnb_group := mk_bnb 0 0.
  (** add_value, bnb.hpp:110-116 *)
  Definition bnb_add (_ : nat) (_ : bnb_shared) (g : bnb_group) (v : Z) : outcome bnb_group :=
    Ok (mk_bnb (u32 (bnb_count g + 1)) (u32 (bnb_sum g + v))).
  (** add_repeated_value, bnb.hpp:118-125 *)
  Definition bnb_rep (_ : nat) (_ : bnb_shared) (g : bnb_group) (v n : Z) : outcome bnb_group :=
    Ok (mk_bnb (u32 (bnb_count g + n)) (u32 (bnb_sum g + u32 (u32 n * v)))).
  (** remove_value, bnb.hpp:127-133 *)
  Definition bnb_rem (_ : nat) (_ : bnb_shared) (g : bnb_group) (v : Z) : outcome bnb_group :=
    Ok (mk_bnb (u32 (bnb_count g - 1)) (u32 (bnb_sum g - v))).
  (** merge, bnb.hpp:135-141 *)
  Definition bnb_merge (_ : nat) (_ : bnb_shared) (g src : bnb_group) : outcome bnb_group :=
    Ok (mk_bnb (u32 (bnb_count g + bnb_count src)) (u32 (bnb_sum g + bnb_sum src))).

  (** struct Group, bnb.hpp:89-175 *)
  Definition BNB : component := {|
    shared_t := bnb_shared; group_t := bnb_group; value_t := Z;
    c_init := bnb_init; c_add := bnb_add; c_rep := bnb_rep; c_rem := bnb_rem; c_merge := bnb_merge |}.

  (** Group::score_value, bnb.hpp:143-155 *)
  Definition bnb_score_value (sh : bnb_shared) (g : bnb_group) (v : Z) : F :=
    let post := bnb_plus_group sh g in
    let alpha := bnb_alpha post + nof (bnb_r sh) in
    let beta := bnb_beta post + nof v in
    let score := nlgamma (bnb_alpha post + bnb_beta post) - nlgamma (alpha + beta) in
    let score := score + (nlgamma alpha - nlgamma (bnb_alpha post)) in
    score + (nlgamma beta - nlgamma (bnb_beta post)).
  (** Group::score_data, bnb.hpp:157-166 *)
  Definition bnb_score_data (sh : bnb_shared) (g : bnb_group) : F :=
    let post := bnb_plus_group sh g in
    let score := nlgamma (bnb_alpha sh + bnb_beta sh) - nlgamma (bnb_alpha post + bnb_beta post) in
    let score := score + (nlgamma (bnb_alpha post) - nlgamma (bnb_alpha sh)) in
    score + (nlgamma (bnb_beta post) - nlgamma (bnb_beta sh)).

  (** Scorer, bnb.hpp:195-220 *)
  Record bnb_scorer := mk_bnb_scorer { bns_score : F; bns_post_beta : F; bns_alpha : F }.
  (** Scorer::init, bnb.hpp:200-211 *)
  Definition bnb_scorer_init (sh : bnb_shared) (g : bnb_group) : bnb_scorer :=
    let post := bnb_plus_group sh g in
    let alpha := bnb_alpha post + nof (bnb_r sh) in
    mk_bnb_scorer
      (((nlgamma (bnb_alpha post + bnb_beta post) - nlgamma (bnb_alpha post)) - nlgamma (bnb_beta post))
         + nlgamma alpha) (bnb_beta post) alpha.
  (** Scorer::eval, bnb.hpp:213-219 *)
  Definition bnb_scorer_eval (s : bnb_scorer) (v : Z) : F :=
    let beta := bns_post_beta s + nof v in
    (bns_score s + nlgamma beta) - nlgamma (bns_alpha s + beta).

  (** MixtureDataScorer::score_data, bnb.hpp:224-242 *)
  Definition bnb_mixture_score_data (sh : bnb_shared) (gs : list bnb_group) : F :=
    let shared_part := (nlgamma (bnb_alpha sh + bnb_beta sh) - nlgamma (bnb_alpha sh)) - nlgamma (bnb_beta sh) in
    fold_left (fun score g =>
      if (bnb_count g =? 0)%Z then score else
      let post := bnb_plus_group sh g in
      let score := score + ((nlgamma (bnb_alpha post) + nlgamma (bnb_beta post)) - nlgamma (bnb_alpha post + bnb_beta post)) in
      score + shared_part) gs (nof 0).

  (** MixtureValueScorer, bnb.hpp:245-341 *)
  Record bnb_vs := mk_bnb_vs { bnv_score : list F; bnv_post_beta : list F; bnv_alpha : list F }.
  (** resize, bnb.hpp:246-250 *)
  Definition bnb_vs_resize (_ : nat) (_ : bnb_shared) (t : bnb_vs) (n : nat) : outcome bnb_vs :=
    Ok (mk_bnb_vs (vec_resize (nof 0) (bnv_score t) n) (vec_resize (nof 0) (bnv_post_beta t) n)
                  (vec_resize (nof 0) (bnv_alpha t) n)).
  (** add_group, bnb.hpp:252-256 *)
  Definition bnb_vs_add_group (_ : nat) (_ : bnb_shared) (t : bnb_vs) : outcome bnb_vs :=
    Ok (mk_bnb_vs (packed_add (bnv_score t) (nof 0)) (packed_add (bnv_post_beta t) (nof 0))
                  (packed_add (bnv_alpha t) (nof 0))).
  (** remove_group, bnb.hpp:258-262 *)
  Definition bnb_vs_remove_group (dl : nat) (_ : bnb_shared) (t : bnb_vs) (i : nat) : outcome bnb_vs :=
    let* a := packed_remove dl (bnv_score t) i in
    let* b := packed_remove dl (bnv_post_beta t) i in
    let* c := packed_remove dl (bnv_alpha t) i in
    Ok (mk_bnb_vs a b c).
  (** update_group, bnb.hpp:264-275 *)
  Definition bnb_vs_update_group (_ : nat) (sh : bnb_shared) (t : bnb_vs) (i : nat) (g : bnb_group) : outcome bnb_vs :=
    let s := bnb_scorer_init sh g in
    let* a := vset (bnv_score t) i (bns_score s) in
    let* b := vset (bnv_post_beta t) i (bns_post_beta s) in
    let* c := vset (bnv_alpha t) i (bns_alpha s) in
    Ok (mk_bnb_vs a b c).
  (** add_value, bnb.hpp:277-284; remove_value, 286-293 *)
  Definition bnb_vs_value (dl : nat) (sh : bnb_shared) (t : bnb_vs) (i : nat) (g : bnb_group) (_ : Z) :=
    bnb_vs_update_group dl sh t i g.
  (** update_all, bnb.hpp:295-303 *)
  Definition bnb_vs_update_all (dl : nat) (sh : bnb_shared) (t : bnb_vs) (gs : list bnb_group) : outcome bnb_vs :=
    vfor 0 (length gs) (fun i t => let* g := vget gs i in bnb_vs_update_group dl sh t i g) t.
  (** score_value_group, bnb.hpp:305-314; note beta + alpha, where Scorer::eval has alpha + beta *)
  Definition bnb_vs_score_group (_ : nat) (_ : bnb_shared) (t : bnb_vs) (_ : list bnb_group) (i : nat) (v : Z) : outcome F :=
    let* p := vget (bnv_post_beta t) i in
    let beta := p + nof v in
    let* s := vget (bnv_score t) i in
    let* a := vget (bnv_alpha t) i in
    Ok ((s + nlgamma beta) - nlgamma (beta + a)).
  (** score_value, bnb.hpp:316-327 *)
  Definition bnb_vs_score (_ : nat) (_ : bnb_shared) (t : bnb_vs) (_ : list bnb_group) (v : Z) (accum : list F) : outcome (list F) :=
    vfor 0 (length accum) (vupdate (fun i x =>
      let* p := vget (bnv_post_beta t) i in
      let beta := p + nof v in
      let* s := vget (bnv_score t) i in
      let* a := vget (bnv_alpha t) i in
      Ok (x + ((s + nlgamma beta) - nlgamma (beta + a))))) accum.

  (** MixtureValueScorer, bnb.hpp:245-341 *)
  Definition bnb_vscorer : vscorer BNB F := {|
    vs_t := bnb_vs;
    vs_resize := bnb_vs_resize : nat -> shared_t BNB -> bnb_vs -> nat -> outcome bnb_vs;
    vs_add_group := bnb_vs_add_group : nat -> shared_t BNB -> bnb_vs -> outcome bnb_vs;
    vs_remove_group := bnb_vs_remove_group : nat -> shared_t BNB -> bnb_vs -> nat -> outcome bnb_vs;
    vs_update_group := bnb_vs_update_group : nat -> shared_t BNB -> bnb_vs -> nat -> group_t BNB -> outcome bnb_vs;
    vs_add_value := bnb_vs_value : nat -> shared_t BNB -> bnb_vs -> nat -> group_t BNB -> value_t BNB -> outcome bnb_vs;
    vs_remove_value := bnb_vs_value : nat -> shared_t BNB -> bnb_vs -> nat -> group_t BNB -> value_t BNB -> outcome bnb_vs;
    vs_update_all := bnb_vs_update_all : nat -> shared_t BNB -> bnb_vs -> list (group_t BNB) -> outcome bnb_vs;
    vs_score_group := bnb_vs_score_group : nat -> shared_t BNB -> bnb_vs -> list (group_t BNB) -> nat -> value_t BNB -> outcome F;
    vs_score := bnb_vs_score : nat -> shared_t BNB -> bnb_vs -> list (group_t BNB) -> value_t BNB -> list F -> outcome (list F) |}.
End BNB.
Arguments bnb_shared : clear implicits.
Arguments bnb_vs : clear implicits.
Arguments bnb_scorer : clear implicits.
Arguments BNB : clear implicits.
