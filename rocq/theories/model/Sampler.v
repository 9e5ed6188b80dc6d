(** PitmanYor::sample_assignments, LowEntropy, count_assignments:
    src/clustering.cc:37-283 and include/distributions/clustering.hpp:245-331. *)
From Verif.model Require Import Base Num VectorMath Random PitmanYor.

(** count_assignments, src/clustering.cc:37-63; [order] is the sequence of (key, group)
    pairs in which the hash map is iterated.  A negative id converts to a size_t above
    2^63, for which resize throws std::length_error: modelled as Fail. *)
Fixpoint count_loop (cs : list Z) (order : list (Z * Z)) : outcome (list Z) :=
  match order with
  | [] => Ok cs
  | (_, gid) :: t =>
      if (gid <? 0)%Z then Fail else
      let g := Z.to_nat gid in
      let cs1 := if length cs <=? g then cs ++ repeat 0%Z (g + 1 - length cs) else cs in
      let* c := vget cs1 g in
      let* c' := i32 (c + 1) in
      let* cs2 := vset cs1 g c' in
      count_loop cs2 t
  end.
(** count_assignments, src/clustering.cc:39-61 *)
Definition count_assignments (dl : nat) (order : list (Z * Z)) : outcome (list Z) :=
  let* cs := count_loop [] order in
  let* _ := dassert_at dl 2 (forallb (fun c => 0 <? c)%Z cs) in
  Ok cs.

Section S.
  Context {F : Type} {N : Num F}.
  Local Open Scope num_scope.

  (** One iteration of the main loop of PitmanYor::sample_assignments,
      src/clustering.cc:118-139.  State: (assignments so far, likelihoods, table_count). *)
  Definition py_sample_step (m : py F) (i : nat) (u : F) (st : list Z * list F * Z)
    : outcome (list Z * list F * Z) :=
    let '(assignments, likelihoods, table_count) := st in
    let total := nof (Z.of_nat i) + alpha m in
    let* a := sample_from_likelihoods u likelihoods total in
    let assign := Z.of_nat a in
    if (assign =? table_count)%Z then
      let table_count := (table_count + 1)%Z in
      let* l := vset (likelihoods ++ [alpha m + disc m * nof table_count]) a (nof 1 - disc m) in
      Ok (assignments ++ [assign], l, table_count)
    else
      let* x := vget likelihoods a in
      let* l := vset likelihoods a (x + nof 1) in
      Ok (assignments ++ [assign], l, table_count).

  (** The loop for i = lo .. lo+n-1 (src/clustering.cc:118). *)
  Fixpoint py_sample_loop (m : py F) (u : nat -> F) (lo n : nat) (st : list Z * list F * Z)
    : outcome (list Z * list F * Z) :=
    match n with
    | O => Ok st
    | S n' => let* st' := py_sample_step m lo (u lo) st in py_sample_loop m u (S lo) n' st'
    end.

  (** sample_assignments, src/clustering.cc:69-142; [u i] is the uniform draw made for
      value i.  [size] non-negative; the assignments vector is built by appending. *)
  Definition py_sample_assignments (m : py F) (size : nat) (u : nat -> F) : outcome (list Z) :=
    let sz := nof (Z.of_nat size) in
    let* _ := dassert (sz <? sz + nof 1) in
    match size with
    | O => Ok []
    | S n =>
        let* l := vset ([alpha m] ++ [alpha m + disc m * nof 1]) 0 (nof 1 - disc m) in
        let* st := py_sample_loop m u 1 n ([0%Z], l, 1%Z) in
        Ok (fst (fst st))
    end.

  (** LowEntropy::_approximate_postpred_correction, clustering.hpp:319-328;
      the float parameter always comes from an integer. *)
  Definition le_postpred (dl : nat) (dataset_size : Z) (n : Z) : outcome F :=
    let* _ := dassert_at dl 2 (0 <? n)%Z in
    let* _ := dassert_at dl 2 (n <? dataset_size)%Z in
    let exponent := (nlit 45 100 - nlit 1 10 / nof n) - nlit 1 10 / nof dataset_size in
    let scale := nof dataset_size / nof n in
    Ok (nlog scale * exponent).

  (** LowEntropy::score_add_value, clustering.hpp:264-292 *)
  Definition le_score_add (dl : nat) (dataset_size group_size nonempty n empty : Z) : outcome F :=
    let* _ := dassert_at dl 1 (n <? dataset_size)%Z in
    let* _ := dassert_at dl 1 (0 <? empty)%Z in
    let* _ := dassert_at dl 1 (nonempty <=? n)%Z in
    if (group_size =? 0)%Z then
      let score := - nlog (nof empty) in
      if (n + 1 <? dataset_size)%Z then
        let* c := le_postpred dl dataset_size (n + 1) in Ok (score + c)
      else Ok score
    else
      let bigger := nof 1 + nof group_size in
      if (10000 <? group_size)%Z then Ok (nof 1 + nlog bigger)
      else Ok (nlog (bigger / nof group_size) * nof group_size + nlog bigger).

  (** LowEntropy::score_remove_value, clustering.hpp:294-309 *)
  Definition le_score_remove (dl : nat) (dataset_size group_size nonempty n empty : Z) : outcome F :=
    let* _ := dassert_at dl 1 (0 <? n)%Z in
    let* s := le_score_add dl dataset_size (group_size - 1) nonempty n empty in
    Ok (- s).

  (** LowEntropy::log_partition_function, src/clustering.cc:189-215; [table] is the 48-entry table
      (its digits: LowEntropyTable.v). *)
  Definition le_log_partition (table : list F) (n : Z) : outcome F :=
    if (n <? 48)%Z then
      if (n <? 0)%Z then UB else vget table (Z.to_nat n)
    else
      let log_z_max := nof n * nlog (nof n) in
      Ok (log_z_max * (nof 1 + nlit 28269584 100000000 * npow (nof n) (nlit (-75) 100))).

  (** _approximate_dataprob_correction, src/clustering.cc:220-226 *)
  Definition le_dataprob (dataset_size n : Z) : F :=
    let a := nlog (nof n) in
    let b := nlog (nof dataset_size) in
    (nlit 61 1000 * a * (a - b)) * npow (a + b) (nlit 75 100).

  (** The loop of score_counts, src/clustering.cc:233-238 *)
  Fixpoint le_counts_loop (score : F) (n : Z) (cs : list Z) : outcome (F * Z) :=
    match cs with
    | [] => Ok (score, n)
    | c :: cs' =>
        let* n' := i32 (n + c) in
        le_counts_loop (if (1 <? c)%Z then score + nof c * nlog (nof c) else score) n' cs'
    end.

  (** LowEntropy::score_counts, src/clustering.cc:228-248; counts.size() - 1 is size_t. *)
  Definition le_score_counts (dl : nat) (table : list F) (dataset_size : Z) (cs : list Z) : outcome F :=
    let* sn := le_counts_loop (nof 0) 0 cs in
    let '(score, n) := sn in
    let* _ := dassert (n <=? dataset_size)%Z in
    let* score :=
      if (n =? dataset_size)%Z then Ok score
      else
        let* log_factor := le_postpred dl dataset_size n in
        let k := ((Z.of_nat (length cs) - 1) mod 2 ^ 64)%Z in
        Ok ((score + log_factor * nof k) + le_dataprob dataset_size n) in
    let* lp := le_log_partition table n in
    Ok (score - lp).

  (** One iteration of LowEntropy::sample_assignments, src/clustering.cc:264-280.
      State: (assignments, counts, likelihoods, size). *)
  Definition le_sample_step (dl : nat) (dataset_size : Z) (u : F)
      (st : list Z * list Z * list F * Z) : outcome (list Z * list Z * list F * Z) :=
    let '(assignments, cs, ls, size) := st in
    let* s := le_score_add dl dataset_size 0 0 size 1 in
    let likelihood_empty := nexp s in
    let* cl :=
      match cs with
      | [] => Ok ([0%Z], ls ++ [likelihood_empty])
      | _ =>
          let* back := vget cs (length cs - 1) in
          if negb (back =? 0)%Z then Ok (cs ++ [0%Z], ls ++ [likelihood_empty])
          else let* ls' := vset ls (length ls - 1) likelihood_empty in Ok (cs, ls')
      end in
    let '(cs, ls) := cl in
    let* a := sample_from_likelihoods_sum u ls in
    let* c := vget cs a in
    let* c' := i32 (c + 1) in
    let* cs' := vset cs a c' in
    let* s' := le_score_add dl dataset_size c' 0 0 1 in
    let* ls' := vset ls a (nexp s') in
    Ok (assignments ++ [Z.of_nat a], cs', ls', (size + 1)%Z).

  (** The loop for i = lo .. lo+n-1, src/clustering.cc:264 *)
  Fixpoint le_sample_loop (dl : nat) (dataset_size : Z) (u : nat -> F) (lo n : nat)
      (st : list Z * list Z * list F * Z) : outcome (list Z * list Z * list F * Z) :=
    match n with
    | O => Ok st
    | S n' => let* st' := le_sample_step dl dataset_size (u lo) st in
              le_sample_loop dl dataset_size u (S lo) n' st'
    end.

  (** LowEntropy::sample_assignments, src/clustering.cc:250-283 *)
  Definition le_sample_assignments (dl : nat) (dataset_size : Z) (sample_size : nat) (u : nat -> F)
    : outcome (list Z) :=
    let* _ := dassert (Z.of_nat sample_size <=? dataset_size)%Z in
    let* st := le_sample_loop dl dataset_size u 0 sample_size ([], [], [], 0%Z) in
    Ok (fst (fst (fst st))).
End S.
