(** NormalInverseWishart, include/distributions/models/niw.hpp, with the multivariate parts of
    include/distributions/random.hpp and special.hpp.  Modelled for a dimension known at run
    time (dim_ = -1, niw.hpp:63); with dim_ = 2 or 3 vectors of another size do not exist.
    The samplers (niw.hpp:319-341) are in NIWSample.v. *)
From Verif.model Require Import Base Num Component.

Section NIW.
  Context {F : Set} {N : Num F}.
  Local Open Scope num_scope.

  (** Eigen column vectors and square matrices (niw.hpp:67-68) as lists and lists of rows. *)
  Definition vec := list F.
  (** niw.hpp:67 *)
  Definition mat := list (list F).

  (** Eigen's coefficientwise binary operators.  Operands of different sizes violate an
      eigen_assert, which release builds compile out: undefined (operators of niw.hpp:82-103 and 247-285). *)
  Fixpoint zip_with {A B D} (f : A -> B -> outcome D) (x : list A) (y : list B) : outcome (list D) :=
    match x, y with
    | [], [] => Ok []
    | a :: x', b :: y' => let* c := f a b in let* r := zip_with f x' y' in Ok (c :: r)
    | _, _ => UB
    end.
  (** the same for vectors, niw.hpp:82-103 *)
  Definition v_bin (f : F -> F -> F) (x y : vec) : outcome vec := zip_with (fun a b => Ok (f a b)) x y.
  (** the same for matrices, niw.hpp:82-103 *)
  Definition m_bin (f : F -> F -> F) (x y : mat) : outcome mat := zip_with (v_bin f) x y.
  (** Scalar times vector or matrix; vector or matrix divided by a scalar (niw.hpp:82-103). *)
  Definition v_map (f : F -> F) (x : vec) : vec := map f x.
  (** niw.hpp:82-103 *)
  Definition m_map (f : F -> F) (x : mat) : mat := map (map f) x.
  (** x * y.transpose() (niw.hpp:82-103, 247-276). *)
  Definition outer (x y : vec) : mat := map (fun a => map (fun b => a * b) y) x.
  (** Vector::Zero(d), setZero (niw.hpp:236-245). *)
  Definition v_zero (d : nat) : vec := repeat (nof 0) d.
  (** niw.hpp:236-245 *)
  Definition m_zero (d : nat) : mat := repeat (v_zero d) d.
  (** x.dot(y); the order in which Eigen sums is not specified, here left to right (random.hpp:182). *)
  Definition v_dot (x y : vec) : outcome F :=
    let* p := v_bin nmul x y in Ok (fold_left nadd p (nof 0)).
  (** A * x (random.hpp:182, 205). *)
  Fixpoint m_vec (A : mat) (x : vec) : outcome vec :=
    match A with
    | [] => Ok []
    | row :: A' => let* c := v_dot row x in let* r := m_vec A' x in Ok (c :: r)
    end.

  (** Shared, niw.hpp:76-80 *)
  Record niw_shared := mk_niw_shared { nw_mu : vec; nw_kappa : F; nw_psi : mat; nw_nu : F }.
  (** Group, niw.hpp:187-190; count is int *)
  Record niw_group := mk_niw { nw_count : Z; nw_sum_x : vec; nw_sum_xxT : mat }.
  (** Shared::dim, niw.hpp:158 *)
  Definition niw_dim (sh : niw_shared) : nat := length (nw_mu sh).

  (** Shared::plus_group, niw.hpp:82-103 *)
  Definition niw_plus_group (dl : nat) (sh : niw_shared) (g : niw_group) : outcome niw_shared :=
    let* _ := dassert_at dl 3 (0 <? niw_dim sh)%nat in
    let n := nof (nw_count g) in
    let kappa := nw_kappa sh in
    let xbar := if (nw_count g =? 0)%Z then v_zero (niw_dim sh) else v_map (fun s => s / n) (nw_sum_x g) in
    let* mu := v_bin nadd (v_map (fun m => kappa / (kappa + n) * m) (nw_mu sh))
                          (v_map (fun b => n / (kappa + n) * b) xbar) in
    let* diff := v_bin nsub xbar (nw_mu sh) in
    let* c1 := m_bin nsub (nw_sum_xxT g) (outer (nw_sum_x g) xbar) in
    let* c2 := m_bin nsub c1 (outer xbar (nw_sum_x g)) in
    let* C_n := m_bin nadd c2 (outer (v_map (fun b => n * b) xbar) xbar) in
    let* p := m_bin nadd (nw_psi sh) C_n in
    let* psi := m_bin nadd p (m_map (fun e => kappa * n / (kappa + n) * e) (outer diff diff)) in
    Ok (mk_niw_shared mu (kappa + n) psi (nw_nu sh + n)).

  (** Group::init, niw.hpp:236-245; its level-3 assertion dim() > 0 is left to the caller. *)
  Definition niw_init (sh : niw_shared) : niw_group :=
    mk_niw 0 (v_zero (niw_dim sh)) (m_zero (niw_dim sh)).
  (** add_value, niw.hpp:247-255 *)
  Definition niw_add (dl : nat) (sh : niw_shared) (g : niw_group) (v : vec) : outcome niw_group :=
    let* _ := dassert_at dl 3 (niw_dim sh =? length v) in
    let* count := i32 (nw_count g + 1) in
    let* sum_x := v_bin nadd (nw_sum_x g) v in
    let* sum_xxT := m_bin nadd (nw_sum_xxT g) (outer v v) in
    Ok (mk_niw count sum_x sum_xxT).
  (** add_repeated_value, niw.hpp:257-266 *)
  Definition niw_rep (dl : nat) (sh : niw_shared) (g : niw_group) (v : vec) (n : Z) : outcome niw_group :=
    let* _ := dassert_at dl 3 (niw_dim sh =? length v) in
    let* count := i32 (nw_count g + n) in
    let* sum_x := v_bin nadd (nw_sum_x g) (v_map (fun e => nof n * e) v) in
    let* sum_xxT := m_bin nadd (nw_sum_xxT g) (m_map (fun e => nof n * e) (outer v v)) in
    Ok (mk_niw count sum_x sum_xxT).
  (** remove_value, niw.hpp:268-276 *)
  Definition niw_rem (dl : nat) (sh : niw_shared) (g : niw_group) (v : vec) : outcome niw_group :=
    let* _ := dassert_at dl 3 (niw_dim sh =? length v) in
    let* count := i32 (nw_count g - 1) in
    let* sum_x := v_bin nsub (nw_sum_x g) v in
    let* sum_xxT := m_bin nsub (nw_sum_xxT g) (outer v v) in
    Ok (mk_niw count sum_x sum_xxT).
  (** merge, niw.hpp:278-285 *)
  Definition niw_merge (_ : nat) (_ : niw_shared) (g src : niw_group) : outcome niw_group :=
    let* count := i32 (nw_count g + nw_count src) in
    let* sum_x := v_bin nadd (nw_sum_x g) (nw_sum_x src) in
    let* sum_xxT := m_bin nadd (nw_sum_xxT g) (nw_sum_xxT src) in
    Ok (mk_niw count sum_x sum_xxT).

  (** struct Group, niw.hpp:187-319 *)
  Definition NIW : component := {|
    shared_t := niw_shared; group_t := niw_group; value_t := vec;
    c_init := niw_init; c_add := niw_add; c_rep := niw_rep; c_rem := niw_rem; c_merge := niw_merge |}.

  (** ** Scores.  [det] and [inv] stand for Eigen's determinant() and inverse(). *)
  Variables (det : mat -> F) (inv : mat -> mat).

  (** The literal 1.1447298858494002 of special.hpp:280, random.hpp:175 and niw.hpp:300. *)
  Definition log_pi_niw : F := nlit 11447298858494002 10000000000000000.
  (** the literal 0.5 of random.hpp:176-182 and niw.hpp:301-307 *)
  Definition nhalf : F := nlit 1 2.

  (** lmultigamma, special.hpp:278-286; d * (d - 1) is unsigned *)
  Definition lmultigamma (dl : nat) (d : nat) (a : F) : outcome F :=
    let* _ := dassert_at dl 1 (0 <? d)%nat in
    let term1 := nlit 1 4 * nof (u32 (Z.of_nat d * (Z.of_nat d - 1))) * log_pi_niw in
    let term2 := fold_left (fun t j => t + nlgamma (a + nhalf * nof (1 - Z.of_nat j))) (seq 1 d) (nof 0) in
    Ok (term1 + term2).

  (** Group::score_data, niw.hpp:296-310; count * shared.dim() is unsigned *)
  Definition niw_score_data (dl : nat) (sh : niw_shared) (g : niw_group) : outcome F :=
    let* post := niw_plus_group dl sh g in
    let* m1 := lmultigamma dl (niw_dim sh) (nw_nu post * nhalf) in
    let* m2 := lmultigamma dl (niw_dim sh) (nw_nu sh * nhalf) in
    Ok (((((m1
      + nw_nu sh * nhalf * nlog (det (nw_psi sh)))
      - nof (u32 (nw_count g * Z.of_nat (niw_dim sh))) * nhalf * log_pi_niw)
      - m2)
      - nw_nu post * nhalf * nlog (det (nw_psi post)))
      + nof (Z.of_nat (niw_dim sh)) * nhalf * nlog (nw_kappa sh / nw_kappa post)).

  (** score_mv_student_t, random.hpp:160-185 *)
  Definition score_mv_student_t (v : vec) (nu : F) (mu : vec) (sigma : mat) : outcome F :=
    let d := nof (Z.of_nat (length v)) in
    let term1 := nlgamma (nu / nof 2 + d / nof 2) - nlgamma (nu / nof 2) in
    let sigma_inv := inv sigma in
    let sigma_det := det sigma in
    let term2 := (- nhalf) * nlog sigma_det - d / nof 2 * (nlog nu + log_pi_niw) in
    let* diff := v_bin nsub v mu in
    let* w := m_vec sigma_inv diff in
    let* q := v_dot diff w in
    let term3 := (- nhalf) * (nu + d) * nlog (nof 1 + nof 1 / nu * q) in
    Ok (term1 + term2 + term3).

  (** Scorer::init, niw.hpp:346-351 *)
  Definition niw_scorer_init (dl : nat) (sh : niw_shared) (g : niw_group) : outcome niw_shared :=
    niw_plus_group dl sh g.
  (** Scorer::eval, niw.hpp:353-360 *)
  Definition niw_scorer_eval (sh : niw_shared) (post : niw_shared) (v : vec) : outcome F :=
    let dof := nw_nu post - nof (Z.of_nat (niw_dim sh)) + nof 1 in
    let sigma := m_map (fun e => e * (nw_kappa post + nof 1) / (nw_kappa post * dof)) (nw_psi post) in
    score_mv_student_t v dof (nw_mu post) sigma.
  (** Group::score_value, niw.hpp:287-294 *)
  Definition niw_score_value (dl : nat) (sh : niw_shared) (g : niw_group) (v : vec) : outcome F :=
    let* post := niw_scorer_init dl sh g in
    niw_scorer_eval sh post v.
End NIW.
Arguments niw_shared : clear implicits.
Arguments niw_group : clear implicits.
Arguments NIW F {N}.
