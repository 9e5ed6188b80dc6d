(** NormalInverseWishart of the Python reference, distributions/dbg/models/niw.py and
    dbg/random.py:113-131.  Arrays are lists as in NIW.v; operands of different shapes, which numpy
    broadcasts or rejects, are [UB] here.  numpy's det and inv are parameters. *)
From Verif.model Require Import Base Num Component NIW.

Section S.
  Context {F : Set} {N : Num F}.
  Local Open Scope num_scope.

  (** class Group, niw.py:165-190: init 167-170, add_value 172-175, add_repeated_value 177-180,
      remove_value 182-185, merge 187-190; the count is a Python integer *)
  Definition PyNIW : component := {|
    shared_t := niw_shared F; group_t := niw_group F; value_t := list F;
    c_init sh := mk_niw 0 (v_zero (niw_dim sh)) (m_zero (niw_dim sh));
    c_add _ _ g v :=
      let* s := v_bin nadd (nw_sum_x g) v in
      let* x := m_bin nadd (nw_sum_xxT g) (outer v v) in
      Ok (mk_niw (nw_count g + 1) s x);
    c_rep _ _ g v n :=
      let* s := v_bin nadd (nw_sum_x g) (v_map (fun e => nof n * e) v) in
      let* x := m_bin nadd (nw_sum_xxT g) (m_map (fun e => nof n * e) (outer v v)) in
      Ok (mk_niw (nw_count g + n) s x);
    c_rem _ _ g v :=
      let* s := v_bin nsub (nw_sum_x g) v in
      let* x := m_bin nsub (nw_sum_xxT g) (outer v v) in
      Ok (mk_niw (nw_count g - 1) s x);
    c_merge _ _ g src :=
      let* s := v_bin nadd (nw_sum_x g) (nw_sum_x src) in
      let* x := m_bin nadd (nw_sum_xxT g) (nw_sum_xxT src) in
      Ok (mk_niw (nw_count g + nw_count src) s x) |}.
  (** Shared.plus_group, niw.py:103-123 *)
  Definition py_niw_plus_group (sh : niw_shared F) (g : niw_group F) : outcome (niw_shared F) :=
    let n := nof (nw_count g) in
    let kappa0 := nw_kappa sh in
    let sum_x := nw_sum_x g in
    let xbar := if negb (nw_count g =? 0)%Z then v_map (fun s => s / n) sum_x else v_zero (niw_dim sh) in
    let* mu_n := v_bin nadd (v_map (fun m => kappa0 / (kappa0 + n) * m) (nw_mu sh))
                            (v_map (fun b => n / (kappa0 + n) * b) xbar) in
    let* diff := v_bin nsub xbar (nw_mu sh) in
    let* c1 := m_bin nsub (nw_sum_xxT g) (outer sum_x xbar) in
    let* c2 := m_bin nsub c1 (outer xbar sum_x) in
    let* C_n := m_bin nadd c2 (m_map (fun e => n * e) (outer xbar xbar)) in
    let* p := m_bin nadd (nw_psi sh) C_n in
    let* psi_n := m_bin nadd p (m_map (fun e => kappa0 * n / (kappa0 + n) * e) (outer diff diff)) in
    Ok (mk_niw_shared mu_n (kappa0 + n) psi_n (nw_nu sh + n)).

  Variables (det : mat (F:=F) -> F) (inv : mat (F:=F) -> mat (F:=F)) (pi : F).
  (** scipy.special.multigammaln(a, d), imported at niw.py:30 (its domain check not modelled) *)
  Definition py_multigammaln (a : F) (d : nat) : F :=
    nof (Z.of_nat d * (Z.of_nat d - 1)) * nlit 1 4 * nlog pi
    + fold_left nadd (map (fun j => nlgamma (a + nof (1 - Z.of_nat j) / nof 2)) (seq 1 d)) (nof 0).
  (** score_data, niw.py:202-217 *)
  Definition py_niw_score_data (sh : niw_shared F) (g : niw_group F) : outcome F :=
    let* post := py_niw_plus_group sh g in
    let D := niw_dim sh in
    Ok (py_multigammaln (nw_nu post / nof 2) D
        + nw_nu sh / nof 2 * nlog (det (nw_psi sh))
        - nof (nw_count g * Z.of_nat D) / nof 2 * nlog pi
        - py_multigammaln (nw_nu sh / nof 2) D
        - nw_nu post / nof 2 * nlog (det (nw_psi post))
        + nof (Z.of_nat D) / nof 2 * nlog (nw_kappa sh / nw_kappa post)).
  (** score_student_t, dbg/random.py:113-131; inner(z, A) contracts z with the rows of A *)
  Definition py_mv_student_t (x : list F) (nu : F) (mu : list F) (sigma : list (list F)) : outcome F :=
    let p := nof (Z.of_nat (length mu)) in
    let* z := v_bin nsub x mu in
    let* w := (fix rows (A : list (list F)) : outcome (list F) :=
      match A with [] => Ok [] | r :: A' => let* c := v_dot z r in let* t := rows A' in Ok (c :: t) end) (inv sigma) in
    let* s := v_dot w z in
    Ok (nlgamma (nlit 1 2 * (nu + p)) - nlgamma (nlit 1 2 * nu)
        - nlit 1 2 * (p * nlog (nu * pi) + nlog (det sigma) + (nu + p) * nlog (nof 1 + s / nu))).
  (** score_value, niw.py:192-200 *)
  Definition py_niw_score_value (sh : niw_shared F) (g : niw_group F) (v : list F) : outcome F :=
    let* post := py_niw_plus_group sh g in
    let dof := nw_nu post - nof (Z.of_nat (niw_dim sh)) + nlit 1 1 in
    let sigma := m_map (fun e => e * (nw_kappa post + nlit 1 1) / (nw_kappa post * dof)) (nw_psi post) in
    py_mv_student_t v dof (nw_mu post) sigma.
End S.
Arguments PyNIW F {N}.
