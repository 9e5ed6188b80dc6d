(** DirichletDiscrete<max_dim>, include/distributions/models/dd.hpp.
    An array of max_dim elements is the list of its first [dim] ones; the remaining ones
    are uninitialised in the C++ object, so an access to them is [UB] here. *)
From Verif.model Require Import Base Packed Num VectorMath Component Slave.

(** a[i] for int i, read and write: undefined outside the array (the subscripts of dd.hpp). *)
Definition zget {A} (l : list A) (i : Z) : outcome A := if (i <? 0)%Z then UB else vget l (Z.to_nat i).
(** The same for writing; the subscripts of dd.hpp *)
Definition zset {A} (l : list A) (i : Z) (a : A) : outcome (list A) := if (i <? 0)%Z then UB else vset l (Z.to_nat i) a.

Section DD.
  Context {F : Type} {N : Num F}.
  Local Open Scope num_scope.

  (** Shared, dd.hpp:57-59; dim is the length of the list. *)
  Record dd_shared := mk_dd_shared { dd_alphas : list F }.
  (** dim, dd.hpp:58 *)
  Definition dd_dim (sh : dd_shared) : nat := length (dd_alphas sh).
  (** Group, dd.hpp:89-92 *)
  Record dd_group := mk_dd { dd_counts : list Z; dd_count_sum : Z }.

  (** Group::init, dd.hpp:113-121 *)
  Definition dd_init (sh : dd_shared) : dd_group := mk_dd (repeat 0%Z (dd_dim sh)) 0.
  (** count_sum += n; counts[value] += n with the assertion of dd.hpp:127 / 137 / 146 *)
  Definition dd_bump (dl : nat) (g : dd_group) (v n : Z) : outcome dd_group :=
    let* _ := dassert_at dl 1 (v <? Z.of_nat (length (dd_counts g)))%Z in
    let* s := i32 (dd_count_sum g + n) in
    let* c := zget (dd_counts g) v in
    let* c := i32 (c + n) in
    let* cs := zset (dd_counts g) v c in
    Ok (mk_dd cs s).
  (** add_value, dd.hpp:123-130 *)
  Definition dd_add (dl : nat) (_ : dd_shared) (g : dd_group) (v : Z) := dd_bump dl g v 1.
  (** add_repeated_value, dd.hpp:132-140 *)
  Definition dd_rep (dl : nat) (_ : dd_shared) (g : dd_group) (v n : Z) := dd_bump dl g v n.
  (** remove_value, dd.hpp:142-149 *)
  Definition dd_rem (dl : nat) (_ : dd_shared) (g : dd_group) (v : Z) := dd_bump dl g v (-1).
  (** merge, dd.hpp:151-158: count_sum is not touched *)
  Definition dd_merge (_ : nat) (_ : dd_shared) (g src : dd_group) : outcome dd_group :=
    let* cs := vfor 0 (length (dd_counts g)) (fun i cs =>
      let* c := vget cs i in
      let* d := vget (dd_counts src) i in
      let* e := i32 (c + d) in
      vset cs i e) (dd_counts g) in
    Ok (mk_dd cs (dd_count_sum g)).

  (** struct Group, dd.hpp:89-199 *)
  Definition DD : component := {|
    shared_t := dd_shared; group_t := dd_group; value_t := Z;
    c_init := dd_init; c_add := dd_add; c_rep := dd_rep; c_rem := dd_rem; c_merge := dd_merge |}.

  (** Scorer, dd.hpp:222-245: (alpha_sum, alphas) *)
  Definition dd_scorer_init (sh : dd_shared) (g : dd_group) : outcome (F * list F) :=
    vfor 0 (dd_dim sh) (fun i (s : F * list F) =>
      let* a := vget (dd_alphas sh) i in
      let* c := vget (dd_counts g) i in
      let alpha := a + nof c in
      Ok (fst s + alpha, snd s ++ [alpha])) (nof 0, []).
  (** Scorer::eval, dd.hpp:238-244 *)
  Definition dd_scorer_eval (dl : nat) (sh : dd_shared) (s : F * list F) (v : Z) : outcome F :=
    let* _ := dassert_at dl 1 (v <? Z.of_nat (dd_dim sh))%Z in
    let* a := zget (snd s) v in
    Ok (nlog (a / fst s)).
  (** Group::score_value, dd.hpp:160-167 *)
  Definition dd_score_value (dl : nat) (sh : dd_shared) (g : dd_group) (v : Z) : outcome F :=
    let* s := dd_scorer_init sh g in
    dd_scorer_eval dl sh s v.
  (** Group::score_data, dd.hpp:169-186 *)
  Definition dd_score_data (sh : dd_shared) (g : dd_group) : outcome F :=
    let* p := vfor 0 (length (dd_counts g)) (fun i (p : F * F) =>
      let* alpha := vget (dd_alphas sh) i in
      let* c := vget (dd_counts g) i in
      Ok (fst p + alpha, snd p + (nlgamma (alpha + nof c) - nlgamma alpha))) (nof 0, nof 0) in
    Ok (snd p + (nlgamma (fst p) - nlgamma (fst p + nof (dd_count_sum g)))).

  (** MixtureDataScorer, dd.hpp:247-344: mutable members *)
  Record dd_ds := mk_dd_ds { dds_alpha_sum : F; dds_shared_part : list F; dds_scores : list F }.
  (** _init, dd.hpp:287-314; [old] is the content left by a previous call *)
  Definition dd_ds_init (old : dd_ds) (sh : dd_shared) (gs : list dd_group) : outcome dd_ds :=
    let dim := dd_dim sh in
    let part := vec_resize (nof 0) (dds_shared_part old) (dim + 1)%nat in
    let* p := vfor 0 dim (fun i (p : F * list F) =>
      let* alpha := vget (dd_alphas sh) i in
      let* part := vset (snd p) i (nlgamma alpha) in
      Ok (fst p + alpha, part)) (nof 0, part) in
    let alpha_sum := fst p in
    let* part := vset (snd p) (length (snd p) - 1)%nat (nlgamma alpha_sum) in
    let scores := repeat (nof 0) (dim + 1)%nat in
    let* scores := vfor 0 (length gs) (fun k scores =>
      let* g := vget gs k in
      if (dd_count_sum g =? 0)%Z then Ok scores else
      let* scores := vfor 0 dim (vupdate (fun i x =>
        let* alpha := vget (dd_alphas sh) i in
        let* c := vget (dd_counts g) i in
        let* s := vget part i in
        Ok (x + (nlgamma (alpha + nof c) - s)))) scores in
      vupdate (fun i x =>
        let* s := vget part (length part - 1)%nat in
        Ok (x + (s - nlgamma (alpha_sum + nof (dd_count_sum g))))) (length scores - 1)%nat scores) scores in
    Ok (mk_dd_ds alpha_sum part scores).
  (** _eval, dd.hpp:316-318 *)
  Definition dd_ds_eval (s : dd_ds) : outcome F := vector_sum (length (dds_scores s)) (dds_scores s).
  (** _update, dd.hpp:320-339; alpha_sum_ is a double there *)
  Definition dd_ds_update (s : dd_ds) (v : nat) (old_alpha new_alpha : F) (gs : list dd_group) : outcome dd_ds :=
    let* part := vset (dds_shared_part s) v (nlgamma new_alpha) in
    let alpha_sum := dds_alpha_sum s + (new_alpha - old_alpha) in
    let* part := vset part (length part - 1)%nat (nlgamma alpha_sum) in
    let* scores := vset (dds_scores s) v (nof 0) in
    let* scores := vset scores (length scores - 1)%nat (nof 0) in
    let* scores := vfor 0 (length gs) (fun k scores =>
      let* g := vget gs k in
      let* scores := vupdate (fun i x =>
        let* c := vget (dd_counts g) i in
        let* p := vget part i in
        Ok (x + (nlgamma (new_alpha + nof c) - p))) v scores in
      vupdate (fun i x =>
        let* p := vget part (length part - 1)%nat in
        Ok (x + (p - nlgamma (alpha_sum + nof (dd_count_sum g))))) (length scores - 1)%nat scores) scores in
    Ok (mk_dd_ds alpha_sum part scores).
  (** score_data, dd.hpp:250-256 *)
  Definition dd_ds_score_data (old : dd_ds) (sh : dd_shared) (gs : list dd_group) : outcome F :=
    let* s := dd_ds_init old sh gs in
    dd_ds_eval s.
  (** operator != on floats (true on NaN) (used at dd.hpp:277). *)
  Definition fneqb (a b : F) : bool := negb ((a <=? b) && (b <=? a))%bool.
  (** score_data_grid, dd.hpp:259-284 *)
  Definition dd_ds_score_data_grid (old : dd_ds) (shareds : list dd_shared) (gs : list dd_group) (out : list F)
    : outcome (list F) :=
    let* _ := dassert (length shareds =? length out)%nat in
    match shareds with
    | [] => Ok out
    | sh0 :: _ =>
        let dim := dd_dim sh0 in
        let* s := dd_ds_init old sh0 gs in
        let* e := dd_ds_eval s in
        let* out := vset out 0 e in
        let* p := vfor 1 (length shareds - 1) (fun i (p : dd_ds * list F) =>
          let* prev := vget shareds (i - 1)%nat in
          let* cur := vget shareds i in
          let* s := vfor 0 dim (fun v s =>
            let* old_alpha := vget (dd_alphas prev) v in
            let* new_alpha := vget (dd_alphas cur) v in
            if fneqb new_alpha old_alpha then dd_ds_update s v old_alpha new_alpha gs else Ok s) (fst p) in
          let* e := dd_ds_eval s in
          let* out := vset (snd p) i e in
          Ok (s, out)) (s, out) in
        Ok (snd p)
    end.

  (** MixtureValueScorer, dd.hpp:346-472; [None] is the uninitialised alpha_sum_ *)
  Record dd_vs := mk_dd_vs { ddv_alpha_sum : option F; ddv_scores : list (list F); ddv_shift : list F }.
  (** resize, dd.hpp:347-353 *)
  Definition dd_vs_resize (_ : nat) (sh : dd_shared) (t : dd_vs) (n : nat) : outcome dd_vs :=
    let shift := vec_resize (nof 0) (ddv_shift t) n in
    let scores := vec_resize [] (ddv_scores t) (dd_dim sh) in
    let* scores := vfor 0 (dd_dim sh) (fun v sc => let* c := vget sc v in vset sc v (vec_resize (nof 0) c n)) scores in
    Ok (mk_dd_vs (ddv_alpha_sum t) scores shift).
  (** add_group, dd.hpp:355-360 *)
  Definition dd_vs_add_group (_ : nat) (sh : dd_shared) (t : dd_vs) : outcome dd_vs :=
    let shift := packed_add (ddv_shift t) (nof 0) in
    let* scores := vfor 0 (dd_dim sh) (fun v sc => let* c := vget sc v in vset sc v (packed_add c (nof 0))) (ddv_scores t) in
    Ok (mk_dd_vs (ddv_alpha_sum t) scores shift).
  (** remove_group, dd.hpp:362-367 *)
  Definition dd_vs_remove_group (dl : nat) (sh : dd_shared) (t : dd_vs) (i : nat) : outcome dd_vs :=
    let* shift := packed_remove dl (ddv_shift t) i in
    let* scores := vfor 0 (dd_dim sh) (fun v sc =>
      let* c := vget sc v in
      let* c := packed_remove dl c i in
      vset sc v c) (ddv_scores t) in
    Ok (mk_dd_vs (ddv_alpha_sum t) scores shift).
  (** reading alpha_sum_, dd.hpp:374, 466 *)
  Definition dd_alpha_sum_get (t : dd_vs) : outcome F :=
    match ddv_alpha_sum t with Some a => Ok a | None => UB end.
  (** scores_[v][i] = x (dd.hpp:376, 464). *)
  Definition set2 (sc : list (list F)) (v i : nat) (x : F) : outcome (list (list F)) :=
    let* c := vget sc v in
    let* c := vset c i x in
    vset sc v c.
  (** update_group, dd.hpp:369-379 *)
  Definition dd_vs_update_group (_ : nat) (sh : dd_shared) (t : dd_vs) (i : nat) (g : dd_group) : outcome dd_vs :=
    let* a := dd_alpha_sum_get t in
    let* shift := vset (ddv_shift t) i (nlog (a + nof (dd_count_sum g))) in
    let* scores := vfor 0 (dd_dim sh) (fun v sc =>
      let* al := vget (dd_alphas sh) v in
      let* c := vget (dd_counts g) v in
      set2 sc v i (nlog (al + nof c))) (ddv_scores t) in
    Ok (mk_dd_vs (ddv_alpha_sum t) scores shift).
  (** _update_group_value, dd.hpp:458-467; add_value 381-388, remove_value 390-397 *)
  Definition dd_vs_value (dl : nat) (sh : dd_shared) (t : dd_vs) (i : nat) (g : dd_group) (v : Z) : outcome dd_vs :=
    let* _ := dassert_at dl 1 (v <? Z.of_nat (dd_dim sh))%Z in
    let* al := zget (dd_alphas sh) v in
    let* c := zget (dd_counts g) v in
    let* scores := set2 (ddv_scores t) (Z.to_nat v) i (nlog (al + nof c)) in
    let* a := dd_alpha_sum_get t in
    let* shift := vset (ddv_shift t) i (nlog (a + nof (dd_count_sum g))) in
    Ok (mk_dd_vs (ddv_alpha_sum t) scores shift).
  (** update_all, dd.hpp:399-421 *)
  Definition dd_vs_update_all (_ : nat) (sh : dd_shared) (t : dd_vs) (gs : list dd_group) : outcome dd_vs :=
    let n := length gs in
    let* a := vfor 0 (dd_dim sh) (fun v a => let* al := vget (dd_alphas sh) v in Ok (a + al)) (nof 0) in
    let* p := vfor 0 n (fun i (p : list (list F) * list F) =>
      let* g := vget gs i in
      let* sc := vfor 0 (dd_dim sh) (fun v sc =>
        let* al := vget (dd_alphas sh) v in
        let* c := vget (dd_counts g) v in
        set2 sc v i (al + nof c)) (fst p) in
      let* shift := vset (snd p) i (a + nof (dd_count_sum g)) in
      Ok (sc, shift)) (ddv_scores t, ddv_shift t) in
    let* shift := vector_log_io n (snd p) in
    let* scores := vfor 0 (dd_dim sh) (fun v sc =>
      let* c := vget sc v in
      let* c := vector_log_io n c in
      vset sc v c) (fst p) in
    Ok (mk_dd_vs (Some a) scores shift).
  (** score_value_group, dd.hpp:423-431 *)
  Definition dd_vs_score_group (dl : nat) (sh : dd_shared) (t : dd_vs) (_ : list dd_group) (i : nat) (v : Z) : outcome F :=
    let* _ := dassert_at dl 1 (v <? Z.of_nat (dd_dim sh))%Z in
    let* c := zget (ddv_scores t) v in
    let* s := vget c i in
    let* h := vget (ddv_shift t) i in
    Ok (s - h).
  (** score_value, dd.hpp:433-445 *)
  Definition dd_vs_score (dl : nat) (sh : dd_shared) (t : dd_vs) (_ : list dd_group) (v : Z) (accum : list F) : outcome (list F) :=
    let* _ := dassert_at dl 1 (v <? Z.of_nat (dd_dim sh))%Z in
    let* c := zget (ddv_scores t) v in
    vector_add_subtract (length accum) accum c (ddv_shift t).

  (** MixtureValueScorer, dd.hpp:346-472 *)
  Definition dd_vscorer : vscorer DD F := {|
    vs_t := dd_vs;
    vs_resize := dd_vs_resize : nat -> shared_t DD -> dd_vs -> nat -> outcome dd_vs;
    vs_add_group := dd_vs_add_group : nat -> shared_t DD -> dd_vs -> outcome dd_vs;
    vs_remove_group := dd_vs_remove_group : nat -> shared_t DD -> dd_vs -> nat -> outcome dd_vs;
    vs_update_group := dd_vs_update_group : nat -> shared_t DD -> dd_vs -> nat -> group_t DD -> outcome dd_vs;
    vs_add_value := dd_vs_value : nat -> shared_t DD -> dd_vs -> nat -> group_t DD -> value_t DD -> outcome dd_vs;
    vs_remove_value := dd_vs_value : nat -> shared_t DD -> dd_vs -> nat -> group_t DD -> value_t DD -> outcome dd_vs;
    vs_update_all := dd_vs_update_all : nat -> shared_t DD -> dd_vs -> list (group_t DD) -> outcome dd_vs;
    vs_score_group := dd_vs_score_group : nat -> shared_t DD -> dd_vs -> list (group_t DD) -> nat -> value_t DD -> outcome F;
    vs_score := dd_vs_score : nat -> shared_t DD -> dd_vs -> list (group_t DD) -> value_t DD -> list F -> outcome (list F) |}.
End DD.
Arguments dd_shared : clear implicits.
Arguments dd_vs : clear implicits.
Arguments dd_ds : clear implicits.
Arguments DD : clear implicits.
