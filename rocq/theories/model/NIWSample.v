(** Samplers of the normal-inverse-Wishart model: include/distributions/random.hpp:188-259 and
    models/niw.hpp:310-341.  Random draws are arguments. *)
From Coq Require Import List.
From Verif.model Require Import Base Num Component NIW Proto.
Import ListNotations.

Section NIWSample.
  Context {F : Set} {N : Num F}.
  Local Open Scope num_scope.
  (** niw.hpp:67 *)
  Notation mat := (mat (F := F)).
  (** niw.hpp:68 *)
  Notation vec := (vec (F := F)).

  (** First column of the rows of A, and the rows without it (Model only, used for random.hpp:196). *)
  Fixpoint split_column (A : mat) : outcome (vec * mat) :=
    match A with
    | [] => Ok ([], [])
    | (b :: row) :: A' => let* r := split_column A' in Ok (b :: fst r, row :: snd r)
    | [] :: _ => UB
    end.
  (** Eigen::LLT<Matrix>, used at random.hpp:196-197 and 217-218: matrixL() of the Cholesky
      factorisation of an n by n matrix, with the assertion that info() is Success.  Column by
      column; only the lower triangle is read.  Like Eigen it stops at a pivot <= 0.
      (Library code: Eigen's blocked algorithm does the same operations in another order.) *)
  Fixpoint llt (n : nat) (A : mat) : outcome mat :=
    match n, A with
    | O, [] => Ok []
    | S n', (a :: _) :: rest =>
        let* _ := dassert (negb (a <=? nof 0)) in
        let s := nsqrt a in
        let* p := split_column rest in
        let col := map (fun b => b / s) (fst p) in
        let* schur := m_bin nsub (snd p) (outer col col) in
        let* L := llt n' schur in
        let* rows := zip_with (fun c r => Ok (c :: r)) col L in
        Ok ((s :: v_zero n') :: rows)
    | _, _ => UB
    end.

  (** rows() == cols(): an Eigen matrix is rectangular, so the first row tells (random.hpp:193, 215). *)
  Definition m_square (A : mat) : bool :=
    match A with [] => true | row :: _ => (length row =? length A)%nat end.

  (** sample_multivariate_normal, random.hpp:187-206; [z] are the standard normal draws *)
  Definition sample_multivariate_normal (mu : vec) (sigma : mat) (z : vec) : outcome vec :=
    let* _ := dassert (m_square sigma) in
    let* _ := dassert (length mu =? length sigma)%nat in
    let* L := llt (length sigma) sigma in
    let* w := m_vec L z in
    v_bin nadd mu w.

  (** A * B of square matrices of dimension d (random.hpp:234-235). *)
  Definition m_mul (d : nat) (A B : mat) : outcome mat :=
    let* Bt := m_transpose d B in
    omap (fun row => m_vec Bt row) A.

  (** The lower triangular matrix A of random.hpp:221-233; [chi i a] is the draw
      sample_chisq(rng, a) made at index i, [norm i j] the standard normal drawn for (i, j). *)
  Definition bartlett (chi : nat -> F -> F) (norm : nat -> nat -> F) (nu : F) (size : nat) : mat :=
    map (fun i => map (fun j =>
      if (j <? i)%nat then norm i j
      else if (j =? i)%nat then nsqrt (chi i (nu - nof (Z.of_nat i)))
      else nof 0) (seq 0 size)) (seq 0 size).
  (** sample_wishart, random.hpp:208-237 *)
  Definition sample_wishart (chi : nat -> F -> F) (norm : nat -> nat -> F) (nu : F) (scale : mat) : outcome mat :=
    let* _ := dassert (m_square scale) in
    let size := length scale in
    let* L := llt size scale in
    let* X := m_mul size L (bartlett chi norm nu size) in
    let* Xt := m_transpose size X in
    m_mul size X Xt.

  (** [inv] stands for Eigen's inverse() *)
  Variable inv : mat -> mat.
  (** sample_inverse_wishart, random.hpp:239-247 *)
  Definition sample_inverse_wishart chi norm (nu : F) (psi : mat) : outcome mat :=
    let* sigma_inv := sample_wishart chi norm nu (inv psi) in
    Ok (inv sigma_inv).
  (** sample_normal_inverse_wishart, random.hpp:249-259 *)
  Definition sample_normal_inverse_wishart chi norm (z : vec) (mu0 : vec) (lambda : F) (psi : mat) (nu : F)
    : outcome (vec * mat) :=
    let* iw := sample_inverse_wishart chi norm nu psi in
    let cov := m_map (fun e => nof 1 / lambda * e) iw in
    let* mu := sample_multivariate_normal mu0 cov z in
    Ok (mu, cov).

  (** Sampler::init, niw.hpp:325-334; the members mu and cov *)
  Definition niw_sampler_init (dl : nat) chi norm (z : vec) (sh : niw_shared F) (g : niw_group F) : outcome (vec * mat) :=
    let* post := niw_plus_group dl sh g in
    sample_normal_inverse_wishart chi norm z (nw_mu post) (nw_kappa post) (nw_psi post) (nw_nu post).
  (** Sampler::eval, niw.hpp:336-340 *)
  Definition niw_sampler_eval (s : vec * mat) (z : vec) : outcome vec :=
    sample_multivariate_normal (fst s) (snd s) z.
  (** Group::sample_value, niw.hpp:310-316 *)
  Definition niw_sample_value (dl : nat) chi norm (z z' : vec) (sh : niw_shared F) (g : niw_group F) : outcome vec :=
    let* s := niw_sampler_init dl chi norm z sh g in
    niw_sampler_eval s z'.
End NIWSample.
