(** DirichletProcessDiscrete, include/distributions/models/dpd.hpp.
    An unordered_map is a [gmap]; where the visiting order of a range-for can be observed
    (sums, vectors) it is an argument [ord], a function from the map to the list of its
    entries.  Where every iteration touches only its own entry the loop is [map_each]. *)
From Verif.model Require Import Base Packed Num VectorMath Component Slave Sparse.
From stdpp Require Import gmap.
Local Open Scope Z_scope.

(** for (auto & i : m) i.second = f(i.first, i.second), where f may fail (the range-for loops of dpd.hpp:330, 400, 408, 420, 479). *)
Fixpoint each_entry {V : Type} (f : Z -> V -> outcome V) (l : list (Z * V)) (m : gmap Z V) : outcome (gmap Z V) :=
  match l with
  | [] => Ok m
  | (k, v) :: l' => let* v' := f k v in each_entry f l' (<[ k := v' ]> m)
  end.
(** the same over every entry, in the order of map_to_list (dpd.hpp:330, 400, 408, 420, 479) *)
Definition map_each {V : Type} (f : Z -> V -> outcome V) (m : gmap Z V) : outcome (gmap Z V) :=
  each_entry f (map_to_list m) m.

(** OTHER(), dpd.hpp:55 *)
Definition OTHER : Z := 4294967295.
(** int to size_t (dpd.hpp:137). *)
Definition as_size (z : Z) : Z := z mod 18446744073709551616.

(** uint64 to int, as gcc does: modulo 2^32 into the range of int (dpd.hpp:121). *)
Definition as_int (z : Z) : Z := let r := z mod 4294967296 in if r <=? i32_max then r else r - 4294967296.

Section DPD.
  Context {F : Type} {N : Num F}.
  Local Open Scope num_scope.

  (** MIN_BETA(), dpd.hpp:56 *)
  Definition min_beta : F := nlit 1 1000000.
  (** std::max(a, b) and std::min(a, b) (dpd.hpp:71, 124). *)
  Definition fmax (a b : F) : F := if a <? b then b else a.
  (** std::min, as in the norms compared at niw.hpp:46 *)
  Definition fmin (a b : F) : F := if b <? a then b else a.

  (** Shared, dpd.hpp:59-64 *)
  Record dpd_shared := mk_dpd_shared {
    dp_gamma : F; dp_alpha : F; dp_beta0 : F; dp_betas : gmap Z F; dp_counts : counter }.

  (** Shared::add_value, 66-74; [u] is the value sample_beta_safe returns (used only for a
      new value; its own assertions are those of random.hpp:110-119). *)
  Definition dps_add (dl : nat) (sh : dpd_shared) (v : Z) (u : F) : outcome dpd_shared :=
    let* _ := dassert_at dl 1 (negb (v =? OTHER)%Z) in
    let* r := ctr_add (dp_counts sh) v 1 in
    if (r.2 =? 1)%Z then
      let* _ := dassert (nof 0 <? dp_beta0 sh) in
      let beta := dp_beta0 sh * u in
      let beta0 := fmax min_beta (dp_beta0 sh - beta) in
      let* betas := sp_add dl (dp_betas sh) v beta in
      Ok (mk_dpd_shared (dp_gamma sh) (dp_alpha sh) beta0 betas r.1)
    else Ok (mk_dpd_shared (dp_gamma sh) (dp_alpha sh) (dp_beta0 sh) (dp_betas sh) r.1).

  (** Shared::remove_value, dpd.hpp:76-81 *)
  Definition dps_remove (dl : nat) (sh : dpd_shared) (v : Z) : outcome dpd_shared :=
    let* _ := dassert_at dl 1 (negb (v =? OTHER)%Z) in
    let* r := ctr_remove (dp_counts sh) v in
    if (r.2 =? 0)%Z then
      let* p := sp_pop dl (dp_betas sh) v in
      Ok (mk_dpd_shared (dp_gamma sh) (dp_alpha sh) (fmin (nlit 1 1) (dp_beta0 sh + p.2)) p.1 r.1)
    else Ok (mk_dpd_shared (dp_gamma sh) (dp_alpha sh) (dp_beta0 sh) (dp_betas sh) r.1).

  (** realize, dpd.hpp:83-101.  [us] are the successive results of sample_beta_safe; [None]: the list
      given was too short. *)
  Definition dps_max_size : Z := 10000.
  (** dpd.hpp:85 *)
  Definition dps_min_beta0 : F := nlit 1 10000.
  (** dpd.hpp:87-90; 1 + i.first in uint32_t arithmetic; the order does not matter for a maximum *)
  Definition dps_new_value (betas : gmap Z F) : Z :=
    fold_right (fun kv acc => Z.max acc (u32 (1 + kv.1))) 0%Z (map_to_list betas).
  (** dpd.hpp:92-94; returns the state, new_value and the rest of the samples *)
  Fixpoint dps_realize_loop (dl : nat) (sh : dpd_shared) (nv : Z) (us : list F)
    : option (outcome (dpd_shared * Z * list F)) :=
    if ((Z.of_nat (size (dp_betas sh)) <? dps_max_size - 1)%Z && (dps_min_beta0 <? dp_beta0 sh))%bool then
      match us with
      | [] => None
      | u :: us' =>
          match dps_add dl sh nv u with
          | Ok sh' => dps_realize_loop dl sh' (u32 (nv + 1)) us'
          | Fail => Some Fail
          | UB => Some UB
          end
      end
    else Some (Ok (sh, nv, us)).
  (** dpd.hpp:96-100 *)
  Definition dps_realize_end (dl : nat) (sh : dpd_shared) (nv : Z) (us : list F) : option (outcome dpd_shared) :=
    if nof 0 <? dp_beta0 sh then
      match us with
      | [] => None
      | u :: _ =>
          Some (let* sh1 := dps_add dl sh nv u in
                let* b := sp_get dl (dp_betas sh1) nv in
                Ok (mk_dpd_shared (dp_gamma sh1) (dp_alpha sh1) (nof 0)
                      (<[ nv := b + dp_beta0 sh1 ]> (dp_betas sh1)) (dp_counts sh1)))
      end
    else Some (Ok sh).
  (** realize, dpd.hpp:83-101 *)
  Definition dps_realize (dl : nat) (sh : dpd_shared) (us : list F) : option (outcome dpd_shared) :=
    match dps_realize_loop dl sh (dps_new_value (dp_betas sh)) us with
    | None => None
    | Some Fail => Some Fail
    | Some UB => Some UB
    | Some (Ok (sh', nv, us')) => dps_realize_end dl sh' nv us'
    end.

  (** Protobuf message of Shared, io/schema.proto (DirichletProcessDiscrete.Shared) *)
  Record dps_msg := mk_dps_msg { dm_gamma : F; dm_alpha : F; dm_values : list Z; dm_betas : list F; dm_counts : list Z }.
  (** protobuf_dump, dpd.hpp:127-139; [order] is the order in which betas is visited.  counts is a
      repeated uint64 field. *)
  Definition dps_dump (sh : dpd_shared) (order : list (Z * F)) : dps_msg :=
    mk_dps_msg (dp_gamma sh) (dp_alpha sh) (map fst order) (map snd order)
               (map (fun kv => as_size (ctr_get_count (dp_counts sh) kv.1)) order).
  (** dpd.hpp:115-122; message.counts(i) converted to int (modulo 2^32) *)
  Fixpoint dps_load_loop (dl : nat) (vs : list Z) (bs : list F) (cs : list Z) (betas : gmap Z F) (counts : counter) (sum : F)
    : outcome (gmap Z F * counter * F) :=
    match vs, bs, cs with
    | v :: vs', b :: bs', c :: cs' =>
        let* _ := dassert (nof 0 <? b) in
        let* betas := sp_add dl betas v b in
        let* r := ctr_add counts v (as_int c) in
        dps_load_loop dl vs' bs' cs' betas r.1 (sum + b)
    | [], [], [] => Ok (betas, counts, sum)
    | _, _, _ => UB
    end.
  (** protobuf_load, dpd.hpp:103-125; beta_sum is a double *)
  Definition dps_load (dl : nat) (m : dps_msg) : outcome dpd_shared :=
    let* _ := dassert (length (dm_betas m) =? length (dm_values m))%nat in
    let* _ := dassert (length (dm_counts m) =? length (dm_values m))%nat in
    let* r := dps_load_loop dl (dm_values m) (dm_betas m) (dm_counts m) ∅ (mk_counter ∅ (Some 0%Z)) (nof 0) in
    let '(betas, counts, sum) := r in
    let* _ := dassert (sum <=? (nlit 1 1 + nlit 1 10000)) in
    Ok (mk_dpd_shared (dm_gamma m) (dm_alpha m) (fmax (nof 0) (nlit 1 1 - sum)) betas counts).

  (** Group, dpd.hpp:157-158: a counter *)
  (** init, dpd.hpp:182-186 *)
  Definition dpd_init (_ : dpd_shared) : counter := mk_counter ∅ (Some 0%Z).
  (** the assertions of dpd.hpp:192-193, 202-203, 211-212 *)
  Definition dpd_check (dl : nat) (sh : dpd_shared) (v : Z) : outcome unit :=
    let* _ := dassert_at dl 1 (negb (v =? OTHER)%Z) in
    dassert_at dl 1 (sp_contains (dp_betas sh) v).
  (** add_value, dpd.hpp:188-195 *)
  Definition dpd_add (dl : nat) (sh : dpd_shared) (g : counter) (v : Z) : outcome counter :=
    let* _ := dpd_check dl sh v in
    let* r := ctr_add g v 1 in Ok r.1.
  (** add_repeated_value, dpd.hpp:197-205 *)
  Definition dpd_rep (dl : nat) (sh : dpd_shared) (g : counter) (v n : Z) : outcome counter :=
    let* _ := dpd_check dl sh v in
    let* r := ctr_add g v n in Ok r.1.
  (** remove_value, dpd.hpp:207-214 *)
  Definition dpd_rem (dl : nat) (sh : dpd_shared) (g : counter) (v : Z) : outcome counter :=
    let* _ := dpd_check dl sh v in
    let* r := ctr_remove g v in Ok r.1.
  (** merge, dpd.hpp:216-221; the visiting order of the source is that of map_to_list (any other one
      gives the same counts, see C18) *)
  Definition dpd_merge (_ : nat) (_ : dpd_shared) (g src : counter) : outcome counter :=
    ctr_merge g src (map_to_list (cmap src)).

  (** struct Group, dpd.hpp:157-271 *)
  Definition DPD : component := {|
    shared_t := dpd_shared; group_t := counter; value_t := Z;
    c_init := dpd_init; c_add := dpd_add; c_rep := dpd_rep; c_rem := dpd_rem; c_merge := dpd_merge |}.

  (** score_value, dpd.hpp:223-233 *)
  Definition dpd_score_value (dl : nat) (sh : dpd_shared) (g : counter) (v : Z) : outcome F :=
    let alpha := dp_alpha sh in
    let* numer :=
      (if (v =? OTHER)%Z then Ok (alpha * dp_beta0 sh)
       else let* b := sp_get dl (dp_betas sh) v in Ok (alpha * b + nof (ctr_get_count g v))) in
    let* t := ctr_get_total g in
    let denom := alpha + nof t in
    Ok (nlog (numer / denom)).

  (** score_data, dpd.hpp:235-252; [order] is the order in which counts is visited *)
  Fixpoint dpd_score_loop (dl : nat) (sh : dpd_shared) (order : list (Z * Z)) (score : F) : outcome F :=
    match order with
    | [] => Ok score
    | (v, c) :: order' =>
        let* b := sp_get dl (dp_betas sh) v in
        let prior := dp_alpha sh * b in
        dpd_score_loop dl sh order' (score + (nlgamma (prior + nof c) - nlgamma prior))
    end.
  (** Group::score_data, dpd.hpp:235-252 *)
  Definition dpd_score_data (dl : nat) (sh : dpd_shared) (g : counter) (order : list (Z * Z)) : outcome F :=
    let* t := ctr_get_total g in
    let total := as_size t in
    let* score := dpd_score_loop dl sh order (nof 0) in
    Ok (score + (nlgamma (dp_alpha sh) - nlgamma (dp_alpha sh + nof total))).

  (** Sampler::init, dpd.hpp:278-296 (the vectors before sample_dirichlet); [order] visits betas *)
  Definition dpd_sampler_probs (sh : dpd_shared) (g : counter) (order : list (Z * F)) : list F * list Z :=
    let probs := map (fun kv => kv.2 * dp_alpha sh + nof (ctr_get_count g kv.1)) order in
    let values := map fst order in
    if nof 0 <? dp_beta0 sh then ((probs ++ [dp_beta0 sh * dp_alpha sh])%list, (values ++ [OTHER])%list)
    else (probs, values).

  (** Scorer::init, dpd.hpp:312-334; [ob], [og] visit betas and the group's counts *)
  Fixpoint dpd_scorer_betas (dl : nat) (scale : F) (ob : list (Z * F)) (s : gmap Z F) : outcome (gmap Z F) :=
    match ob with
    | [] => Ok s
    | (v, b) :: ob' => let* s := sp_add dl s v (b * scale) in dpd_scorer_betas dl scale ob' s
    end.
  (** the second loop of Scorer::init, dpd.hpp:325-328 *)
  Fixpoint dpd_scorer_counts (dl : nat) (scale : F) (og : list (Z * Z)) (s : gmap Z F) : outcome (gmap Z F) :=
    match og with
    | [] => Ok s
    | (v, c) :: og' =>
        let* x := sp_get dl s v in
        dpd_scorer_counts dl scale og' (<[ v := x + scale * nof c ]> s)
    end.
  (** Scorer::init, dpd.hpp:312-334 *)
  Definition dpd_scorer_init (dl : nat) (sh : dpd_shared) (g : counter) (ob : list (Z * F)) (og : list (Z * Z)) : outcome (gmap Z F) :=
    let* t := ctr_get_total g in
    let total := as_size t in
    let beta_scale := dp_alpha sh / (dp_alpha sh + nof total) in
    let* s := sp_add dl ∅ OTHER (beta_scale * dp_beta0 sh) in
    let* s := dpd_scorer_betas dl beta_scale ob s in
    let counts_scale := nlit 1 1 / (dp_alpha sh + nof total) in
    let* s := dpd_scorer_counts dl counts_scale og s in
    map_each (fun _ x => Ok (nlog x)) s.
  (** Scorer::eval, dpd.hpp:336-341 *)
  Definition dpd_scorer_eval (dl : nat) (s : gmap Z F) (v : Z) : outcome F := sp_get dl s v.

  (** MixtureDataScorer::score_data, dpd.hpp:346-373.  shared_part is betas with lgamma(alpha * beta)
      in place of beta; [ord] gives the visiting order of each group's counts. *)
  Fixpoint dpd_mix_group (dl : nat) (sh : dpd_shared) (part : gmap Z F) (order : list (Z * Z)) (score : F) : outcome F :=
    match order with
    | [] => Ok score
    | (v, c) :: order' =>
        let* b := sp_get dl (dp_betas sh) v in
        let prior := b * dp_alpha sh in
        let* p := sp_get dl part v in
        dpd_mix_group dl sh part order' (score + (nlgamma (prior + nof c) - p))
    end.
  (** the loop over the groups, dpd.hpp:358-371 *)
  Fixpoint dpd_mix_loop (dl : nat) (ord : counter -> list (Z * Z)) (sh : dpd_shared) (part : gmap Z F) (shared_total : F)
      (gs : list counter) (score : F) : outcome F :=
    match gs with
    | [] => Ok score
    | g :: gs' =>
        let* t := ctr_get_total g in
        if (t =? 0)%Z then dpd_mix_loop dl ord sh part shared_total gs' score
        else
          let* score := dpd_mix_group dl sh part (ord g) score in
          dpd_mix_loop dl ord sh part shared_total gs' (score + (shared_total - nlgamma (dp_alpha sh + nof t)))
    end.
  (** MixtureDataScorer::score_data, dpd.hpp:346-373 *)
  Definition dpd_mixture_score_data (dl : nat) (ord : counter -> list (Z * Z)) (sh : dpd_shared) (gs : list counter) : outcome F :=
    let part := (fun b => nlgamma (dp_alpha sh * b)) <$> dp_betas sh in
    dpd_mix_loop dl ord sh part (nlgamma (dp_alpha sh)) gs (nof 0).

  (** MixtureValueScorer, dpd.hpp:376-578; an entry is (ref_count, scores) *)
  Record dpd_vs := mk_dpd_vs { dpv_scores : gmap Z (Z * list F); dpv_shift : list F }.
  (** validate, dpd.hpp:545-556 *)
  Definition dpd_valid (sh : dpd_shared) (t : dpd_vs) (n : nat) : bool :=
    ((size (dpv_scores t) <=? size (dp_betas sh))%nat && (length (dpv_shift t) =? n)%nat &&
     forallb (fun kv : Z * (Z * list F) => sp_contains (dp_betas sh) kv.1 && (length kv.2.2 =? n)%nat) (map_to_list (dpv_scores t)))%bool.
  (** _validate, dpd.hpp:565-569 *)
  Definition dpd_validate (dl : nat) (sh : dpd_shared) (t : dpd_vs) (n : nat) : outcome unit :=
    dassert_at dl 3 (dpd_valid sh t n).
  (** dpd.hpp:379-384 *)
  Definition dpd_resize_entries (n : nat) (keys : list Z) (sc : gmap Z (Z * list F)) : gmap Z (Z * list F) :=
    fold_left (fun sc v => let '(sc1, e) := sp_get_or_add (0%Z, []) sc v in
                           <[ v := (1%Z, vec_resize (nof 0) e.2 n) ]> sc1) keys sc.
  (** resize, dpd.hpp:377-396 *)
  Definition dpd_vs_resize (dl : nat) (sh : dpd_shared) (t : dpd_vs) (n : nat) : outcome dpd_vs :=
    let shift := vec_resize (nof 0) (dpv_shift t) n in
    let sc := dpd_resize_entries n (map fst (map_to_list (dp_betas sh))) (dpv_scores t) in
    let sc := if (size sc =? size (dp_betas sh))%nat then sc
              else filter (fun kv : Z * (Z * list F) => sp_contains (dp_betas sh) kv.1 = true) sc in
    let t := mk_dpd_vs sc shift in
    let* _ := dpd_validate dl sh t n in
    Ok t.
  (** add_group, dpd.hpp:398-405 *)
  Definition dpd_vs_add_group (dl : nat) (sh : dpd_shared) (t : dpd_vs) : outcome dpd_vs :=
    let* sc := map_each (fun v (e : Z * list F) =>
      let* b := sp_get dl (dp_betas sh) v in
      Ok (e.1, packed_add e.2 (nlog (dp_alpha sh * b)))) (dpv_scores t) in
    Ok (mk_dpd_vs sc (packed_add (dpv_shift t) (nlog (dp_alpha sh)))).
  (** remove_group, dpd.hpp:407-412 *)
  Definition dpd_vs_remove_group (dl : nat) (_ : dpd_shared) (t : dpd_vs) (i : nat) : outcome dpd_vs :=
    let* sc := map_each (fun v (e : Z * list F) =>
      let* s := packed_remove dl e.2 i in Ok (e.1, s)) (dpv_scores t) in
    let* shift := packed_remove dl (dpv_shift t) i in
    Ok (mk_dpd_vs sc shift).
  (** update_group, dpd.hpp:414-428 *)
  Definition dpd_vs_update_group (dl : nat) (sh : dpd_shared) (t : dpd_vs) (i : nat) (g : counter) : outcome dpd_vs :=
    let* sc := map_each (fun v (e : Z * list F) =>
      let* b := sp_get dl (dp_betas sh) v in
      let* s := vset e.2 i (nlog (dp_alpha sh * b + nof (ctr_get_count g v))) in
      Ok (e.1, s)) (dpv_scores t) in
    let* tot := ctr_get_total g in
    let* shift := vset (dpv_shift t) i (nlog (dp_alpha sh + nof tot)) in
    Ok (mk_dpd_vs sc shift).
  (** add_value, dpd.hpp:430-449 *)
  Definition dpd_vs_add_value (dl : nat) (sh : dpd_shared) (t : dpd_vs) (i : nat) (g : counter) (v : Z) : outcome dpd_vs :=
    let* _ := dassert_at dl 1 (negb (v =? OTHER)%Z) in
    let '(sc, e) := sp_get_or_add (0%Z, []) (dpv_scores t) v in
    let ref := u32 (e.1 + 1) in
    let* s :=
      (if (ref =? 1)%Z then
         let* b := sp_get dl (dp_betas sh) v in
         Ok (vec_resize (nlog (dp_alpha sh * b)) e.2 (length (dpv_shift t)))
       else Ok e.2) in
    let* b := sp_get dl (dp_betas sh) v in
    let* s := vset s i (nlog (dp_alpha sh * b + nof (ctr_get_count g v))) in
    let* tot := ctr_get_total g in
    let* shift := vset (dpv_shift t) i (nlog (dp_alpha sh + nof tot)) in
    Ok (mk_dpd_vs (<[ v := (ref, s) ]> sc) shift).
  (** remove_value, dpd.hpp:451-469 *)
  Definition dpd_vs_remove_value (dl : nat) (sh : dpd_shared) (t : dpd_vs) (i : nat) (g : counter) (v : Z) : outcome dpd_vs :=
    let* _ := dassert_at dl 1 (negb (v =? OTHER)%Z) in
    let* e := sp_get dl (dpv_scores t) v in
    let ref := u32 (e.1 - 1) in
    let* sc :=
      (if (ref =? 0)%Z then sp_remove dl (dpv_scores t) v
       else
         let* b := sp_get dl (dp_betas sh) v in
         let* s := vset e.2 i (nlog (dp_alpha sh * b + nof (ctr_get_count g v))) in
         Ok (<[ v := (ref, s) ]> (dpv_scores t))) in
    let* tot := ctr_get_total g in
    let* shift := vset (dpv_shift t) i (nlog (dp_alpha sh + nof tot)) in
    Ok (mk_dpd_vs sc shift).
  (** update_all, dpd.hpp:471-497 *)
  Definition dpd_vs_update_all (dl : nat) (sh : dpd_shared) (t : dpd_vs) (gs : list counter) : outcome dpd_vs :=
    let* _ := dpd_validate dl sh t (length gs) in
    let n := length gs in
    let* sc := map_each (fun v (e : Z * list F) =>
      let* b := sp_get dl (dp_betas sh) v in
      let* p := vfor 0 n (fun i (p : Z * list F) =>
        let* g := vget gs i in
        let count := ctr_get_count g v in
        let* s := vset p.2 i (dp_alpha sh * b + nof count) in
        Ok (u32 (p.1 + count), s)) (0%Z, e.2) in
      let* s := vector_log_io n p.2 in
      Ok (p.1, s)) (dpv_scores t) in
    let* shift := vfor 0 n (fun i o =>
      let* g := vget gs i in
      let* tot := ctr_get_total g in
      vset o i (dp_alpha sh + nof tot)) (dpv_shift t) in
    let* shift := vector_log_io n shift in
    Ok (mk_dpd_vs sc shift).
  (** the beta of a value without entry, dpd.hpp:510-512 / 533-535 *)
  Definition dpd_absent_beta (dl : nat) (sh : dpd_shared) (v : Z) : outcome F :=
    if (v =? OTHER)%Z then Ok (dp_beta0 sh) else sp_get dl (dp_betas sh) v.
  (** score_value_group, dpd.hpp:499-515 *)
  Definition dpd_vs_score_group (dl : nat) (sh : dpd_shared) (t : dpd_vs) (gs : list counter) (i : nat) (v : Z) : outcome F :=
    let* _ := dpd_validate dl sh t (length gs) in
    if sp_contains (dpv_scores t) v then
      let* e := sp_get dl (dpv_scores t) v in
      let* s := vget e.2 i in
      let* h := vget (dpv_shift t) i in
      Ok (s - h)
    else
      let* b := dpd_absent_beta dl sh v in
      let* h := vget (dpv_shift t) i in
      Ok (nlog (dp_alpha sh * b) - h).
  (** score_value, dpd.hpp:517-543 *)
  Definition dpd_vs_score (dl : nat) (sh : dpd_shared) (t : dpd_vs) (gs : list counter) (v : Z) (accum : list F) : outcome (list F) :=
    let* _ := dpd_validate dl sh t (length gs) in
    if sp_contains (dpv_scores t) v then
      let* e := sp_get dl (dpv_scores t) v in
      vector_add_subtract (length accum) accum e.2 (dpv_shift t)
    else
      let* b := dpd_absent_beta dl sh v in
      vector_add_subtract_scalar (length accum) accum (nlog (dp_alpha sh * b)) (dpv_shift t).

  (** MixtureValueScorer, dpd.hpp:376-578 *)
  Definition dpd_vscorer : vscorer DPD F := {|
    vs_t := dpd_vs;
    vs_resize := dpd_vs_resize : nat -> shared_t DPD -> dpd_vs -> nat -> outcome dpd_vs;
    vs_add_group := dpd_vs_add_group : nat -> shared_t DPD -> dpd_vs -> outcome dpd_vs;
    vs_remove_group := dpd_vs_remove_group : nat -> shared_t DPD -> dpd_vs -> nat -> outcome dpd_vs;
    vs_update_group := dpd_vs_update_group : nat -> shared_t DPD -> dpd_vs -> nat -> group_t DPD -> outcome dpd_vs;
    vs_add_value := dpd_vs_add_value : nat -> shared_t DPD -> dpd_vs -> nat -> group_t DPD -> value_t DPD -> outcome dpd_vs;
    vs_remove_value := dpd_vs_remove_value : nat -> shared_t DPD -> dpd_vs -> nat -> group_t DPD -> value_t DPD -> outcome dpd_vs;
    vs_update_all := dpd_vs_update_all : nat -> shared_t DPD -> dpd_vs -> list (group_t DPD) -> outcome dpd_vs;
    vs_score_group := dpd_vs_score_group : nat -> shared_t DPD -> dpd_vs -> list (group_t DPD) -> nat -> value_t DPD -> outcome F;
    vs_score := dpd_vs_score : nat -> shared_t DPD -> dpd_vs -> list (group_t DPD) -> value_t DPD -> list F -> outcome (list F) |}.
End DPD.
Arguments dpd_shared : clear implicits.
Arguments dpd_vs : clear implicits.
Arguments dps_msg : clear implicits.
Arguments DPD F : clear implicits.
