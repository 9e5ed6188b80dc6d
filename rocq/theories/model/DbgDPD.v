(** DirichletProcessDiscrete of the Python reference, distributions/dbg/models/dpd.py.  A dict is a
    [gmap]; an exception is [Fail]. *)
From Verif.model Require Import Base Num Component Sparse DPD.
From stdpp Require Import gmap.
Local Open Scope Z_scope.

(** Group, dpd.py:169-175 *)
Record py_dpd := mk_py_dpd { pdp_counts : gmap Z Z; pdp_total : Z }.

Section S.
  Context {F : Type} {N : Num F}.
  Local Open Scope num_scope.

  (** add_repeated_value, dpd.py:177-189 *)
  Definition py_dpd_rep (sh : dpd_shared F) (g : py_dpd) (v n : Z) : outcome py_dpd :=
    let* _ := dassert (negb (v =? OTHER)%Z) in
    let* _ := dassert (match dp_betas sh !! v with Some _ => true | None => false end) in
    if (n =? 0)%Z then Ok g
    else
      let total := (pdp_total g + n)%Z in
      match pdp_counts g !! v with
      | Some c =>
          let count := (n + c)%Z in
          if negb (count =? 0)%Z then Ok (mk_py_dpd (<[ v := count ]> (pdp_counts g)) total)
          else Ok (mk_py_dpd (delete v (pdp_counts g)) total)
      | None => Ok (mk_py_dpd (<[ v := n ]> (pdp_counts g)) total)
      end.
  (** the loop of merge, dpd.py:230-231 *)
  Fixpoint py_dpd_rep_all (sh : dpd_shared F) (g : py_dpd) (order : list (Z * Z)) : outcome py_dpd :=
    match order with
    | [] => Ok g
    | (v, n) :: t => let* g' := py_dpd_rep sh g v n in py_dpd_rep_all sh g' t
    end.
  (** merge, dpd.py:229-232; the source is visited in the order of map_to_list *)
  Definition py_dpd_merge (sh : dpd_shared F) (g src : py_dpd) : outcome py_dpd :=
    let* g' := py_dpd_rep_all sh g (map_to_list (pdp_counts src)) in
    Ok (mk_py_dpd (pdp_counts g') (pdp_total g' + pdp_total src)).
  (** class Group, dpd.py:168-232: init 173-175, add_value 191-192, remove_value 194-195 *)
  Definition PyDPD : component := {|
    shared_t := dpd_shared F; group_t := py_dpd; value_t := Z;
    c_init _ := mk_py_dpd ∅ 0;
    c_add _ sh g v := py_dpd_rep sh g v 1;
    c_rep _ sh g v n := py_dpd_rep sh g v n;
    c_rem _ sh g v := py_dpd_rep sh g v (-1);
    c_merge _ sh := py_dpd_merge sh |}.

  (** score_value, dpd.py:197-209; shared.betas[value] raises KeyError *)
  Definition py_dpd_score_value (sh : dpd_shared F) (g : py_dpd) (v : Z) : outcome F :=
    let denom := dp_alpha sh + nof (pdp_total g) in
    let* numer :=
      (if (v =? OTHER)%Z then Ok (dp_beta0 sh * dp_alpha sh)
       else
         let count := match pdp_counts g !! v with Some c => c | None => 0%Z end in
         let* _ := dassert (0 <=? count)%Z in
         match dp_betas sh !! v with
         | Some b => Ok (b * dp_alpha sh + nof count)
         | None => Fail
         end) in
    Ok (nlog (numer / denom)).
  (** score_data, dpd.py:211-222; [order] is the order in which counts is visited *)
  Fixpoint py_dpd_score_loop (sh : dpd_shared F) (order : list (Z * Z)) (score : F) : outcome F :=
    match order with
    | [] => Ok score
    | (v, c) :: t =>
        let* _ := dassert (0 <=? c)%Z in
        match dp_betas sh !! v with
        | Some b =>
            let prior := b * dp_alpha sh in
            py_dpd_score_loop sh t (score + (nlgamma (prior + nof c) - nlgamma prior))
        | None => Fail
        end
    end.
  (** score_data, dpd.py:211-222 *)
  Definition py_dpd_score_data (sh : dpd_shared F) (g : py_dpd) (order : list (Z * Z)) : outcome F :=
    let* _ := dassert (negb (size (dp_betas sh) =? 0)%nat) in
    let* score := py_dpd_score_loop sh order (nof 0) in
    Ok (score + (nlgamma (dp_alpha sh) - nlgamma (dp_alpha sh + nof (pdp_total g)))).

  (** Shared, dpd.py:74-80 *)
  Record py_dps := mk_py_dps {
    pds_gamma : F; pds_alpha : F; pds_beta0 : F; pds_betas : gmap Z F; pds_counts : gmap Z Z }.
  (** Shared.add_value, dpd.py:137-144; [u] is what sample_beta returns *)
  Definition py_dps_add (sh : py_dps) (v : Z) (u : F) : outcome py_dps :=
    let* _ := dassert (negb (v =? OTHER)%Z) in
    let count := ((match pds_counts sh !! v with Some c => c | None => 0 end) + 1)%Z in
    let counts := <[ v := count ]> (pds_counts sh) in
    if (count =? 1)%Z then
      let beta := pds_beta0 sh * u in
      Ok (mk_py_dps (pds_gamma sh) (pds_alpha sh) (fmax (nof 0) (pds_beta0 sh - beta))
            (<[ v := beta ]> (pds_betas sh)) counts)
    else Ok (mk_py_dps (pds_gamma sh) (pds_alpha sh) (pds_beta0 sh) (pds_betas sh) counts).
  (** Shared.remove_value, dpd.py:146-153; missing keys raise KeyError *)
  Definition py_dps_remove (sh : py_dps) (v : Z) : outcome py_dps :=
    let* _ := dassert (negb (v =? OTHER)%Z) in
    match pds_counts sh !! v with
    | None => Fail
    | Some c =>
        let count := (c - 1)%Z in
        if negb (count =? 0)%Z then
          Ok (mk_py_dps (pds_gamma sh) (pds_alpha sh) (pds_beta0 sh) (pds_betas sh) (<[ v := count ]> (pds_counts sh)))
        else
          match pds_betas sh !! v with
          | None => Fail
          | Some b =>
              Ok (mk_py_dps (pds_gamma sh) (pds_alpha sh) (pds_beta0 sh + b) (delete v (pds_betas sh))
                    (delete v (pds_counts sh)))
          end
    end.
End S.
Arguments py_dps : clear implicits.
Arguments PyDPD : clear implicits.
