(** NormalInverseChiSq, include/distributions/models/nich.hpp and src/models/nich.cc. *)
From Verif.model Require Import Base Packed Num VectorMath Component Slave.

Section NICH.
  Context {F : Type} {N : Num F}.
  Local Open Scope num_scope.

  (** Shared, nich.hpp:52-56 *)
  Record nich_shared := mk_nich_shared { ni_mu : F; ni_kappa : F; ni_sigmasq : F; ni_nu : F }.
  (** Group, nich.hpp:98-101; count is int, a value is a float (41). *)
  Record nich_group := mk_nich { ni_count : Z; ni_mean : F; ni_ctv : F }.

  (** special.hpp:38 M_PIf and the literals of score_data (194, 272) *)
  Definition m_pif : F := nlit 314159265358979 100000000000000.
  (** the literal of nich.hpp:194 *)
  Definition log_pi_lit : F := nlit 11447298858493991 10000000000000000.
  (** the literal 0.5f of nich.hpp:195-200 and 245-247 *)
  Definition half : F := nlit 1 2.
  (** sqr, as used in nich.hpp:125-202 *)
  Definition sqr (x : F) : F := x * x.

  (** Shared::plus_group, nich.hpp:58-69 *)
  Definition nich_plus_group (sh : nich_shared) (g : nich_group) : nich_shared :=
    let mu_1 := ni_mu sh - ni_mean g in
    let kappa := ni_kappa sh + nof (ni_count g) in
    let mu := (ni_kappa sh * ni_mu sh + ni_mean g * nof (ni_count g)) / kappa in
    let nu := ni_nu sh + nof (ni_count g) in
    let sigmasq := nlit 1 1 / nu * ((ni_nu sh * ni_sigmasq sh + ni_ctv g)
                     + (((nof (ni_count g) * ni_kappa sh) * mu_1) * mu_1) / kappa) in
    mk_nich_shared mu kappa sigmasq nu.

  (** Group::init, nich.hpp:117-123 *)
  Definition nich_init (_ : nich_shared) : nich_group := mk_nich 0 (nlit 0 1) (nlit 0 1).
  (** add_value, nich.hpp:125-133 *)
  Definition nich_add (_ : nat) (_ : nich_shared) (g : nich_group) (v : F) : outcome nich_group :=
    let* count := i32 (ni_count g + 1) in
    let delta := v - ni_mean g in
    let mean := ni_mean g + delta / nof count in
    Ok (mk_nich count mean (ni_ctv g + delta * (v - mean))).
  (** add_repeated_value, nich.hpp:135-144 *)
  Definition nich_rep (_ : nat) (_ : nich_shared) (g : nich_group) (v : F) (n : Z) : outcome nich_group :=
    let* count := i32 (ni_count g + n) in
    let delta := nof n * v - ni_mean g in
    let mean := ni_mean g + delta / nof count in
    Ok (mk_nich count mean (ni_ctv g + delta * (v - mean))).
  (** remove_value, nich.hpp:146-165 *)
  Definition nich_rem (_ : nat) (_ : nich_shared) (g : nich_group) (v : F) : outcome nich_group :=
    let total := ni_mean g * nof (ni_count g) in
    let delta := v - ni_mean g in
    let* _ := dassert (0 <? ni_count g)%Z in
    let* count := i32 (ni_count g - 1) in
    let mean := if (count =? 0)%Z then nlit 0 1 else (total - v) / nof count in
    let ctv := if (count <=? 1)%Z then nlit 0 1 else ni_ctv g - delta * (v - mean) in
    Ok (mk_nich count mean ctv).
  (** merge, nich.hpp:167-179 *)
  Definition nich_merge (_ : nat) (_ : nich_shared) (g src : nich_group) : outcome nich_group :=
    let* total_count := i32 (ni_count g + ni_count src) in
    let delta := ni_mean src - ni_mean g in
    let source_part := nof (ni_count src) / nof total_count in
    let cross_part := nof (ni_count g) * source_part in
    Ok (mk_nich total_count (ni_mean g + source_part * delta)
          (ni_ctv g + (ni_ctv src + cross_part * sqr delta))).

  (** struct Group, nich.hpp:98-211 *)
  Definition NICH : component := {|
    shared_t := nich_shared; group_t := nich_group; value_t := F;
    c_init := nich_init; c_add := nich_add; c_rep := nich_rep; c_rem := nich_rem; c_merge := nich_merge |}.

  (** Scorer, nich.hpp:233-260 *)
  Record nich_scorer := mk_nich_scorer { nis_score : F; nis_coeff : F; nis_prec : F; nis_mean : F }.
  (** Scorer::init, nich.hpp:239-250 *)
  Definition nich_scorer_init (sh : nich_shared) (g : nich_group) : nich_scorer :=
    let post := nich_plus_group sh g in
    let lambda := ni_kappa post / ((ni_kappa post + nlit 1 1) * ni_sigmasq post) in
    mk_nich_scorer (nlgamma_nu (ni_nu post) + half * nlog (lambda / (m_pif * ni_nu post)))
                   ((- half) * ni_nu post - half)
                   (lambda / ni_nu post) (ni_mu post).
  (** Scorer::eval, nich.hpp:252-259 *)
  Definition nich_scorer_eval (s : nich_scorer) (v : F) : F :=
    nis_score s + nis_coeff s * nlog (nlit 1 1 + nis_prec s * sqr (v - nis_mean s)).
  (** Group::score_value, nich.hpp:181-188 *)
  Definition nich_score_value (sh : nich_shared) (g : nich_group) (v : F) : F :=
    nich_scorer_eval (nich_scorer_init sh g) v.
  (** Group::score_data, nich.hpp:190-202 *)
  Definition nich_score_data (sh : nich_shared) (g : nich_group) : F :=
    let post := nich_plus_group sh g in
    let score := nlgamma (half * ni_nu post) - nlgamma (half * ni_nu sh) in
    let score := score + half * nlog (ni_kappa sh / ni_kappa post) in
    let score := score + ((half * ni_nu sh) * nlog (ni_nu sh * ni_sigmasq sh)
                          - (half * ni_nu post) * nlog (ni_nu post * ni_sigmasq post)) in
    score + ((- half) * nof (ni_count g)) * log_pi_lit.

  (** MixtureDataScorer::score_data, nich.hpp:264-287 *)
  Definition nich_mixture_score_data (sh : nich_shared) (gs : list nich_group) : F :=
    let nu_part := nlgamma (half * ni_nu sh) in
    let kappa_part := half * nlog (ni_kappa sh) in
    let sigmasq_part := (half * ni_nu sh) * nlog (ni_nu sh * ni_sigmasq sh) in
    fold_left (fun score g =>
      if (ni_count g =? 0)%Z then score else
      let post := nich_plus_group sh g in
      let score := score + (nlgamma (half * ni_nu post) - nu_part) in
      let score := score + (kappa_part - half * nlog (ni_kappa post)) in
      let score := score + (sigmasq_part - (half * ni_nu post) * nlog (ni_nu post * ni_sigmasq post)) in
      score + ((- half) * log_pi_lit) * nof (ni_count g)) gs (nof 0).

  (** MixtureValueScorer, nich.hpp:290-385 *)
  Record nich_vs := mk_nich_vs { niv_score : list F; niv_coeff : list F; niv_prec : list F; niv_mean : list F }.
  (** resize, nich.hpp:291-296 *)
  Definition nich_vs_resize (_ : nat) (_ : nich_shared) (t : nich_vs) (n : nat) : outcome nich_vs :=
    Ok (mk_nich_vs (vec_resize (nof 0) (niv_score t) n) (vec_resize (nof 0) (niv_coeff t) n)
                   (vec_resize (nof 0) (niv_prec t) n) (vec_resize (nof 0) (niv_mean t) n)).
  (** add_group, nich.hpp:298-303 *)
  Definition nich_vs_add_group (_ : nat) (_ : nich_shared) (t : nich_vs) : outcome nich_vs :=
    Ok (mk_nich_vs (packed_add (niv_score t) (nof 0)) (packed_add (niv_coeff t) (nof 0))
                   (packed_add (niv_prec t) (nof 0)) (packed_add (niv_mean t) (nof 0))).
  (** remove_group, nich.hpp:305-310 *)
  Definition nich_vs_remove_group (dl : nat) (_ : nich_shared) (t : nich_vs) (i : nat) : outcome nich_vs :=
    let* a := packed_remove dl (niv_score t) i in
    let* b := packed_remove dl (niv_coeff t) i in
    let* c := packed_remove dl (niv_prec t) i in
    let* d := packed_remove dl (niv_mean t) i in
    Ok (mk_nich_vs a b c d).
  (** update_group, nich.hpp:312-324 *)
  Definition nich_vs_update_group (_ : nat) (sh : nich_shared) (t : nich_vs) (i : nat) (g : nich_group) : outcome nich_vs :=
    let s := nich_scorer_init sh g in
    let* a := vset (niv_score t) i (nis_score s) in
    let* b := vset (niv_coeff t) i (nis_coeff s) in
    let* c := vset (niv_prec t) i (nis_prec s) in
    let* d := vset (niv_mean t) i (nis_mean s) in
    Ok (mk_nich_vs a b c d).
  (** add_value, nich.hpp:326-333; remove_value, 335-342 *)
  Definition nich_vs_value (dl : nat) (sh : nich_shared) (t : nich_vs) (i : nat) (g : nich_group) (_ : F) :=
    nich_vs_update_group dl sh t i g.
  (** update_all, nich.hpp:344-352 *)
  Definition nich_vs_update_all (dl : nat) (sh : nich_shared) (t : nich_vs) (gs : list nich_group) : outcome nich_vs :=
    vfor 0 (length gs) (fun i t => let* g := vget gs i in nich_vs_update_group dl sh t i g) t.
  (** score_value_group, nich.hpp:354-362 *)
  Definition nich_vs_score_group (_ : nat) (_ : nich_shared) (t : nich_vs) (_ : list nich_group) (i : nat) (v : F) : outcome F :=
    let* p := vget (niv_prec t) i in
    let* m := vget (niv_mean t) i in
    let temp := nlit 1 1 + p * sqr (v - m) in
    let* s := vget (niv_score t) i in
    let* c := vget (niv_coeff t) i in
    Ok (s + c * nlog temp).
  (** score_value, src/models/nich.cc:33-66 *)
  Definition nich_vs_score (_ : nat) (_ : nich_shared) (t : nich_vs) (_ : list nich_group) (v : F) (accum : list F) : outcome (list F) :=
    let size := length accum in
    let* temp := vfor 0 size (fun i o =>
        let* p := vget (niv_prec t) i in
        let* m := vget (niv_mean t) i in
        vset o i (nlit 1 1 + p * sqr (v - m))) (repeat (nof 0) size) in
    let* temp := vector_log_io size temp in
    vfor 0 size (vupdate (fun i x =>
      let* s := vget (niv_score t) i in
      let* c := vget (niv_coeff t) i in
      let* l := vget temp i in
      Ok (x + (s + c * l)))) accum.

  (** MixtureValueScorer, nich.hpp:290-385 *)
  Definition nich_vscorer : vscorer NICH F := {|
    vs_t := nich_vs;
    vs_resize := nich_vs_resize : nat -> shared_t NICH -> nich_vs -> nat -> outcome nich_vs;
    vs_add_group := nich_vs_add_group : nat -> shared_t NICH -> nich_vs -> outcome nich_vs;
    vs_remove_group := nich_vs_remove_group : nat -> shared_t NICH -> nich_vs -> nat -> outcome nich_vs;
    vs_update_group := nich_vs_update_group : nat -> shared_t NICH -> nich_vs -> nat -> group_t NICH -> outcome nich_vs;
    vs_add_value := nich_vs_value : nat -> shared_t NICH -> nich_vs -> nat -> group_t NICH -> value_t NICH -> outcome nich_vs;
    vs_remove_value := nich_vs_value : nat -> shared_t NICH -> nich_vs -> nat -> group_t NICH -> value_t NICH -> outcome nich_vs;
    vs_update_all := nich_vs_update_all : nat -> shared_t NICH -> nich_vs -> list (group_t NICH) -> outcome nich_vs;
    vs_score_group := nich_vs_score_group : nat -> shared_t NICH -> nich_vs -> list (group_t NICH) -> nat -> value_t NICH -> outcome F;
    vs_score := nich_vs_score : nat -> shared_t NICH -> nich_vs -> list (group_t NICH) -> value_t NICH -> list F -> outcome (list F) |}.
End NICH.
Arguments nich_shared : clear implicits.
Arguments nich_group : clear implicits.
Arguments nich_vs : clear implicits.
Arguments nich_scorer : clear implicits.
Arguments NICH F {N}.
