(** Clustering<int32_t>::PitmanYor and its CachedMixture,
    include/distributions/clustering.hpp:58-239, src/clustering.cc:69-183. *)
From stdpp Require Import gmap.
From Verif.model Require Import Base Packed Driver Num.

Section PY.
  Context {F : Type} {N : Num F}.
  Local Open Scope num_scope.

  (** Data members, clustering.hpp:59-60. *)
  Record py := mk_py { alpha : F; disc : F }.

  (** score_add_value, clustering.hpp:81-104. *)
  Definition py_score_add (m : py) (group_size nonempty sample_size empty : Z) : F :=
    if (group_size =? 0)%Z then
      let numer := alpha m + disc m * nof nonempty in
      let denom := (nof sample_size + alpha m) * nof empty in
      nlog (numer / denom)
    else nlog ((nof group_size - disc m) / (nof sample_size + alpha m)).

  (** score_remove_value, clustering.hpp:106-123 (int32_t overflow ignored). *)
  Definition py_score_remove (m : py) (group_size nonempty sample_size empty : Z) : F :=
    let group_size := (group_size - 1)%Z in
    let nonempty := if (group_size =? 0)%Z then (nonempty - 1)%Z else nonempty in
    - py_score_add m group_size nonempty (sample_size - 1)%Z empty.

  (** fast_log_ratio, fast_lgamma_ratio, src/clustering.cc:144-150. *)
  Definition log_ratio (numer denom : F) : F := nlog (numer / denom).
  (** fast_lgamma_ratio, src/clustering.cc:148-150 *)
  Definition lgamma_ratio (start : F) (count : Z) : F :=
    nlgamma (start + nof count) - nlgamma start.

  (** score_counts, src/clustering.cc:152-183: the loop from a given state
      (score, sample_size, nonempty_group_count).  size_t arithmetic unbounded;
      counts are non-negative. *)
  Fixpoint py_score_counts_loop (m : py) (score : F) (sample_size nonempty : Z) (cs : list Z) : F :=
    match cs with
    | [] => score
    | count :: cs' =>
        if (count =? 0)%Z then py_score_counts_loop m score sample_size nonempty cs'
        else
          let base := alpha m + disc m * nof nonempty in
          let n := alpha m + nof sample_size in
          let score' :=
            if (count =? 1)%Z then score + log_ratio base n
            else if (count =? 2)%Z then
              score + log_ratio (base * (nof 1 - disc m)) (n * (n + nof 1))
            else
              ((score + nlog base) + lgamma_ratio (nof 1 - disc m) (count - 1))
                - lgamma_ratio n count in
          py_score_counts_loop m score' (sample_size + count) (nonempty + 1) cs'
    end.
  (** PitmanYor::score_counts, src/clustering.cc:152-187 *)
  Definition py_score_counts (m : py) (cs : list Z) : F :=
    py_score_counts_loop m (nof 0) 0 0 cs.

  (** MixtureDriver::score_value, mixture.hpp:124-141, and score_data, 143-145 (the uncached
      version), for the Pitman-Yor model; [out_size] is scores.size(). *)
  Definition py_driver_score_value (dl : nat) (m : py) (d : driver) (out_size : nat) : outcome (list F) :=
    let* _ := dassert_at dl 1 (out_size =? length (counts d))%nat in
    if (out_size <? length (counts d))%nat then UB else
    let empty := Z.of_nat (size (empties d)) in
    let nonempty := (Z.of_nat (length (counts d)) - empty)%Z in
    Ok (map (fun c => py_score_add m c nonempty (sample_size d) empty) (counts d)).

  (** CachedMixture data members, clustering.hpp:232-233. *)
  Record cached := mk_cached { cdriver : driver; shifted : list F }.

  (** _update_nonempty_group, clustering.hpp:215-219. *)
  Definition update_nonempty (dl : nat) (m : py) (c : cached) (groupid : nat) : outcome cached :=
    let* group_size := vget (counts (cdriver c)) groupid in
    let* _ := dassert_at dl 2 (negb (group_size =? 0)%Z) in
    let* s := vset (shifted c) groupid (nlog (nof group_size - disc m)) in
    Ok (mk_cached (cdriver c) s).

  (** Writing one value at every id of a list (the loop of clustering.hpp:226-229). *)
  Fixpoint set_all (l : list F) (ids : list nat) (x : F) : outcome (list F) :=
    match ids with
    | [] => Ok l
    | i :: ids' => let* l' := vset l i x in set_all l' ids' x
    end.

  (** _update_empty_groups, clustering.hpp:221-230.  The set is iterated in the order
      of [elements]; every iteration stores the same value, so the order is unobservable. *)
  Definition update_empty (m : py) (c : cached) : outcome cached :=
    let empty_group_count := Z.of_nat (size (empties (cdriver c))) in
    let nonempty_group_count := (Z.of_nat (length (counts (cdriver c))) - empty_group_count)%Z in
    let numer := alpha m + disc m * nof nonempty_group_count in
    let denom := nof empty_group_count in
    let* s := set_all (shifted c) (elements (empties (cdriver c))) (nlog (numer / denom)) in
    Ok (mk_cached (cdriver c) s).

  (** std::vector<float>::resize (clustering.hpp:154). *)
  Definition vresize (l : list F) (n : nat) : list F :=
    firstn n l ++ repeat (nof 0) (n - length l).

  (** The loop of init, clustering.hpp:155-159, over the ids in [ids]. *)
  Fixpoint py_init_loop (dl : nat) (m : py) (c : cached) (ids : list nat) : outcome cached :=
    match ids with
    | [] => Ok c
    | i :: ids' =>
        let* n := vget (counts (cdriver c)) i in
        let* c' := if (n =? 0)%Z then Ok c else update_nonempty dl m c i in
        py_init_loop dl m c' ids'
    end.

  (** init, clustering.hpp:151-161; [old] is the previous content of shifted_scores_,
      [cs] what the client put in counts(). *)
  Definition py_init (dl : nat) (m : py) (old : list F) (cs : list Z) : outcome cached :=
    let* d := driver_init dl cs in
    let group_count := length (counts d) in
    let* c := py_init_loop dl m (mk_cached d (vresize old group_count)) (seq 0 group_count) in
    update_empty m c.

  (** add_value, clustering.hpp:163-176. *)
  Definition py_add (dl : nat) (m : py) (c : cached) (groupid : nat) (count : Z) : outcome (cached * bool) :=
    let* r := driver_add dl (cdriver c) groupid count in
    let* c1 :=
      if r.2 then update_empty m (mk_cached r.1 (packed_add (shifted c) (nof 0)))
      else Ok (mk_cached r.1 (shifted c)) in
    let* c2 := update_nonempty dl m c1 groupid in
    Ok (c2, r.2).

  (** remove_value, clustering.hpp:178-193. *)
  Definition py_remove (dl : nat) (m : py) (c : cached) (groupid : nat) (count : Z) : outcome (cached * bool) :=
    let* r := driver_remove dl (cdriver c) groupid count in
    let* c1 :=
      if r.2 then
        let* s := packed_remove dl (shifted c) groupid in
        update_empty m (mk_cached r.1 s)
      else update_nonempty dl m (mk_cached r.1 (shifted c)) groupid in
    Ok (c1, r.2).

  (** score_value, clustering.hpp:195-208; [out_size] is scores.size().  The whole
      output vector is overwritten when the sizes agree. *)
  Definition py_score_value (dl : nat) (m : py) (c : cached) (out_size : nat) : outcome (list F) :=
    let* _ := dassert_at dl 1 (out_size =? length (counts (cdriver c)))%nat in
    if (out_size <? length (counts (cdriver c)))%nat || (length (shifted c) <? length (counts (cdriver c)))%nat then UB else
    let shift := - nlog (nof (sample_size (cdriver c)) + alpha m) in
    Ok (map (fun s => s + shift) (firstn (length (counts (cdriver c))) (shifted c))).
End PY.
Arguments py : clear implicits.
Arguments cached : clear implicits.
