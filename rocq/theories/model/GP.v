(** GammaPoisson, include/distributions/models/gp.hpp and src/models/gp.cc. *)
From Verif.model Require Import Base Packed Num VectorMath Component Slave.

Section GP.
  Context {F : Type} {N : Num F}.
  Local Open Scope num_scope.

  (** Shared, gp.hpp:52-54 *)
  Record gp_shared := mk_gp_shared { gp_alpha : F; gp_inv_beta : F }.
  (** Group, gp.hpp:84-87; count and sum are uint32_t, a value is a uint32_t (41),
      here an integer in [0, 2^32). *)
  Record gp_group := mk_gp { gp_count : Z; gp_sum : Z; gp_log_prod : F }.

  (** Shared::plus_group, gp.hpp:56-61 *)
  Definition gp_plus_group (sh : gp_shared) (g : gp_group) : gp_shared :=
    mk_gp_shared (gp_alpha sh + nof (gp_sum g)) (gp_inv_beta sh + nof (gp_count g)).

  (** Group::init, gp.hpp:103-107 *)
  Definition gp_init (_ : gp_shared) : gp_group := mk_gp 0 0 (nof 0).
  (** add_value, gp.hpp:109-116 *)
  Definition gp_add (_ : nat) (_ : gp_shared) (g : gp_group) (v : Z) : outcome gp_group :=
    Ok (mk_gp (u32 (gp_count g + 1)) (u32 (gp_sum g + v)) (gp_log_prod g + nlogfact v)).
  (** add_repeated_value, gp.hpp:118-126; int count is converted to unsigned in [count * value] *)
  Definition gp_rep (_ : nat) (_ : gp_shared) (g : gp_group) (v : Z) (n : Z) : outcome gp_group :=
    Ok (mk_gp (u32 (gp_count g + n)) (u32 (gp_sum g + u32 (u32 n * v))) (gp_log_prod g + nof n * nlogfact v)).
  (** remove_value, gp.hpp:128-135 *)
  Definition gp_rem (_ : nat) (_ : gp_shared) (g : gp_group) (v : Z) : outcome gp_group :=
    Ok (mk_gp (u32 (gp_count g - 1)) (u32 (gp_sum g - v)) (gp_log_prod g - nlogfact v)).
  (** merge, gp.hpp:137-144 *)
  Definition gp_merge (_ : nat) (_ : gp_shared) (g src : gp_group) : outcome gp_group :=
    Ok (mk_gp (u32 (gp_count g + gp_count src)) (u32 (gp_sum g + gp_sum src))
              (gp_log_prod g + gp_log_prod src)).

  (** struct Group, gp.hpp:84-173 *)
  Definition GP : component := {|
    shared_t := gp_shared; group_t := gp_group; value_t := Z;
    c_init := gp_init; c_add := gp_add; c_rep := gp_rep; c_rem := gp_rem; c_merge := gp_merge |}.

  (** Scorer, gp.hpp:193-218 *)
  Record gp_scorer := mk_gp_scorer { gps_score : F; gps_post_alpha : F; gps_coeff : F }.
  (** Scorer::init, gp.hpp:198-207 *)
  Definition gp_scorer_init (sh : gp_shared) (g : gp_group) : gp_scorer :=
    let post := gp_plus_group sh g in
    let score_coeff := - nlog (nlit 1 1 + gp_inv_beta post) in
    let score := - nlgamma (gp_alpha post) + gp_alpha post * (nlog (gp_inv_beta post) + score_coeff) in
    mk_gp_scorer score (gp_alpha post) score_coeff.
  (** Scorer::eval, gp.hpp:209-217 *)
  Definition gp_scorer_eval (s : gp_scorer) (v : Z) : F :=
    ((gps_score s + nlgamma (gps_post_alpha s + nof v)) - nlogfact v) + gps_coeff s * nof v.
  (** Group::score_value, gp.hpp:146-153 *)
  Definition gp_score_value (sh : gp_shared) (g : gp_group) (v : Z) : F :=
    gp_scorer_eval (gp_scorer_init sh g) v.
  (** Group::score_data, gp.hpp:155-164 *)
  Definition gp_score_data (sh : gp_shared) (g : gp_group) : F :=
    let post := gp_plus_group sh g in
    let score := nlgamma (gp_alpha post) - nlgamma (gp_alpha sh) in
    let score := score + (gp_alpha sh * nlog (gp_inv_beta sh) - gp_alpha post * nlog (gp_inv_beta post)) in
    score + - gp_log_prod g.

  (** MixtureDataScorer::score_data, gp.hpp:222-240 *)
  Definition gp_mixture_score_data (sh : gp_shared) (gs : list gp_group) : F :=
    let alpha_part := nlgamma (gp_alpha sh) in
    let beta_part := gp_alpha sh * nlog (gp_inv_beta sh) in
    fold_left (fun score g =>
      if (gp_count g =? 0)%Z then score else
      let post := gp_plus_group sh g in
      let score := score + (nlgamma (gp_alpha post) - alpha_part) in
      let score := score + (beta_part - gp_alpha post * nlog (gp_inv_beta post)) in
      score + - gp_log_prod g) gs (nof 0).

  (** MixtureValueScorer, gp.hpp:243-334 *)
  Record gp_vs := mk_gp_vs { gpv_score : list F; gpv_post_alpha : list F; gpv_coeff : list F }.
  (** resize, gp.hpp:244-248 *)
  Definition gp_vs_resize (_ : nat) (_ : gp_shared) (t : gp_vs) (n : nat) : outcome gp_vs :=
    Ok (mk_gp_vs (vec_resize (nof 0) (gpv_score t) n) (vec_resize (nof 0) (gpv_post_alpha t) n)
                 (vec_resize (nof 0) (gpv_coeff t) n)).
  (** add_group, gp.hpp:250-254; packed_add() appends float() = 0 *)
  Definition gp_vs_add_group (_ : nat) (_ : gp_shared) (t : gp_vs) : outcome gp_vs :=
    Ok (mk_gp_vs (packed_add (gpv_score t) (nof 0)) (packed_add (gpv_post_alpha t) (nof 0))
                 (packed_add (gpv_coeff t) (nof 0))).
  (** remove_group, gp.hpp:256-260 *)
  Definition gp_vs_remove_group (dl : nat) (_ : gp_shared) (t : gp_vs) (i : nat) : outcome gp_vs :=
    let* a := packed_remove dl (gpv_score t) i in
    let* b := packed_remove dl (gpv_post_alpha t) i in
    let* c := packed_remove dl (gpv_coeff t) i in
    Ok (mk_gp_vs a b c).
  (** update_group, gp.hpp:262-273 *)
  Definition gp_vs_update_group (_ : nat) (sh : gp_shared) (t : gp_vs) (i : nat) (g : gp_group) : outcome gp_vs :=
    let s := gp_scorer_init sh g in
    let* a := vset (gpv_score t) i (gps_score s) in
    let* b := vset (gpv_post_alpha t) i (gps_post_alpha s) in
    let* c := vset (gpv_coeff t) i (gps_coeff s) in
    Ok (mk_gp_vs a b c).
  (** add_value, gp.hpp:275-282; remove_value, 284-291 *)
  Definition gp_vs_value (dl : nat) (sh : gp_shared) (t : gp_vs) (i : nat) (g : gp_group) (_ : Z) :=
    gp_vs_update_group dl sh t i g.
  (** update_all, gp.hpp:293-301 *)
  Definition gp_vs_update_all (dl : nat) (sh : gp_shared) (t : gp_vs) (gs : list gp_group) : outcome gp_vs :=
    vfor 0 (length gs) (fun i t => let* g := vget gs i in gp_vs_update_group dl sh t i g) t.
  (** score_value_group, gp.hpp:303-313 *)
  Definition gp_vs_score_group (_ : nat) (_ : gp_shared) (t : gp_vs) (_ : list gp_group) (i : nat) (v : Z) : outcome F :=
    let* s := vget (gpv_score t) i in
    let* p := vget (gpv_post_alpha t) i in
    let* c := vget (gpv_coeff t) i in
    Ok (((s + nlgamma (p + nof v)) - nlogfact v) + c * nof v).
  (** score_value, src/models/gp.cc:32-67; the thread-local scratch vector starts with
      [size] elements (their old content is overwritten before use). *)
  Definition gp_vs_score (_ : nat) (_ : gp_shared) (t : gp_vs) (_ : list gp_group) (v : Z) (accum : list F) : outcome (list F) :=
    let size := length accum in
    let* temp := vfor 0 size (fun i o => let* p := vget (gpv_post_alpha t) i in vset o i (nlgamma (p + nof v)))
                   (repeat (nof 0) size) in
    vfor 0 size (vupdate (fun i x =>
      let* s := vget (gpv_score t) i in
      let* l := vget temp i in
      let* c := vget (gpv_coeff t) i in
      Ok (x + (((s + l) - nlogfact v) + c * nof v)))) accum.

  (** MixtureValueScorer, gp.hpp:243-334 *)
  Definition gp_vscorer : vscorer GP F := {|
    vs_t := gp_vs;
    vs_resize := gp_vs_resize : nat -> shared_t GP -> gp_vs -> nat -> outcome gp_vs;
    vs_add_group := gp_vs_add_group : nat -> shared_t GP -> gp_vs -> outcome gp_vs;
    vs_remove_group := gp_vs_remove_group : nat -> shared_t GP -> gp_vs -> nat -> outcome gp_vs;
    vs_update_group := gp_vs_update_group : nat -> shared_t GP -> gp_vs -> nat -> group_t GP -> outcome gp_vs;
    vs_add_value := gp_vs_value : nat -> shared_t GP -> gp_vs -> nat -> group_t GP -> value_t GP -> outcome gp_vs;
    vs_remove_value := gp_vs_value : nat -> shared_t GP -> gp_vs -> nat -> group_t GP -> value_t GP -> outcome gp_vs;
    vs_update_all := gp_vs_update_all : nat -> shared_t GP -> gp_vs -> list (group_t GP) -> outcome gp_vs;
    vs_score_group := gp_vs_score_group : nat -> shared_t GP -> gp_vs -> list (group_t GP) -> nat -> value_t GP -> outcome F;
    vs_score := gp_vs_score : nat -> shared_t GP -> gp_vs -> list (group_t GP) -> value_t GP -> list F -> outcome (list F) |}.
End GP.
Arguments gp_shared : clear implicits.
Arguments gp_group : clear implicits.
Arguments gp_vs : clear implicits.
Arguments gp_scorer : clear implicits.
Arguments GP F {N}.
