(** protobuf_load and protobuf_dump of the models and clusterings.  A message is the record of its
    fields (distributions/io/schema.proto); the message classes and their bytes are in Schema.v
    and ProtoWire.v.  An integer field of type uint64 holds a number below 2^64: dumping converts with
    [as_size] (int or uint32_t to uint64_t), loading with [as_int] or [u32].
    BetaBernoulli to NormalInverseChiSq assign every field, so what the object held before loading
    does not matter; where a load starts by clearing a container that container is an argument. *)
From Verif.model Require Import Base Num VectorMath Component BB GP BNB NICH DD Sparse DPD NIW PitmanYor.

Section Small.
  Context {F : Type}.

  (** bb.hpp:59-68 *)
  Record bb_shared_msg := mk_bb_shared_msg { bsm_alpha : F; bsm_beta : F }.
  (** bb.hpp:64-68 *)
  Definition bb_shared_dump (sh : bb_shared F) := mk_bb_shared_msg (bb_alpha sh) (bb_beta sh).
  (** bb.hpp:59-62 *)
  Definition bb_shared_load (m : bb_shared_msg) : bb_shared F := mk_bb_shared (bsm_alpha m) (bsm_beta m).
  (** bb.hpp:84-93 *)
  Record bb_msg := mk_bb_msg { bm_heads : Z; bm_tails : Z }.
  (** bb.hpp:89-93 *)
  Definition bb_dump (g : bb_group) := mk_bb_msg (as_size (bb_heads g)) (as_size (bb_tails g)).
  (** bb.hpp:84-87 *)
  Definition bb_load (m : bb_msg) : bb_group := mk_bb (as_int (bm_heads m)) (as_int (bm_tails m)).

  (** gp.hpp:64-73 *)
  Record gp_shared_msg := mk_gp_shared_msg { gsm_alpha : F; gsm_inv_beta : F }.
  (** gp.hpp:69-73 *)
  Definition gp_shared_dump (sh : gp_shared F) := mk_gp_shared_msg (gp_alpha sh) (gp_inv_beta sh).
  (** gp.hpp:64-67 *)
  Definition gp_shared_load (m : gp_shared_msg) : gp_shared F := mk_gp_shared (gsm_alpha m) (gsm_inv_beta m).
  (** gp.hpp:90-101; count and sum are uint32_t *)
  Record gp_msg := mk_gp_msg { gm_count : Z; gm_sum : Z; gm_log_prod : F }.
  (** gp.hpp:96-101 *)
  Definition gp_dump (g : gp_group F) := mk_gp_msg (as_size (gp_count g)) (as_size (gp_sum g)) (gp_log_prod g).
  (** gp.hpp:90-94 *)
  Definition gp_load (m : gp_msg) : gp_group F := mk_gp (u32 (gm_count m)) (u32 (gm_sum m)) (gm_log_prod m).

  (** bnb.hpp:66-77; r is uint32_t *)
  Record bnb_shared_msg := mk_bnb_shared_msg { nsm_alpha : F; nsm_beta : F; nsm_r : Z }.
  (** bnb.hpp:72-77 *)
  Definition bnb_shared_dump (sh : bnb_shared F) := mk_bnb_shared_msg (bnb_alpha sh) (bnb_beta sh) (as_size (bnb_r sh)).
  (** bnb.hpp:66-70 *)
  Definition bnb_shared_load (m : bnb_shared_msg) : bnb_shared F := mk_bnb_shared (nsm_alpha m) (nsm_beta m) (u32 (nsm_r m)).
  (** bnb.hpp:94-103 *)
  Record bnb_msg := mk_bnb_msg { nm_count : Z; nm_sum : Z }.
  (** bnb.hpp:99-103 *)
  Definition bnb_dump (g : bnb_group) := mk_bnb_msg (as_size (bnb_count g)) (as_size (bnb_sum g)).
  (** bnb.hpp:94-97 *)
  Definition bnb_load (m : bnb_msg) : bnb_group := mk_bnb (u32 (nm_count m)) (u32 (nm_sum m)).

  (** nich.hpp:72-85 *)
  Record nich_shared_msg := mk_nich_shared_msg { csm_mu : F; csm_kappa : F; csm_sigmasq : F; csm_nu : F }.
  (** nich.hpp:79-85 *)
  Definition nich_shared_dump (sh : nich_shared F) := mk_nich_shared_msg (ni_mu sh) (ni_kappa sh) (ni_sigmasq sh) (ni_nu sh).
  (** nich.hpp:72-77 *)
  Definition nich_shared_load (m : nich_shared_msg) : nich_shared F :=
    mk_nich_shared (csm_mu m) (csm_kappa m) (csm_sigmasq m) (csm_nu m).
  (** nich.hpp:104-115; count is int, its field uint64 *)
  Record nich_msg := mk_nich_msg { cm_count : Z; cm_mean : F; cm_ctv : F }.
  (** nich.hpp:110-115 *)
  Definition nich_dump (g : nich_group F) := mk_nich_msg (as_size (ni_count g)) (ni_mean g) (ni_ctv g).
  (** nich.hpp:104-108 *)
  Definition nich_load (m : nich_msg) : nich_group F := mk_nich (as_int (cm_count m)) (cm_mean m) (cm_ctv m).

  (** dd.hpp:62-76: Clear, then one field entry for each of the dim alphas *)
  Definition dd_shared_dump (sh : dd_shared F) : list F := dd_alphas sh.
  (** dd.hpp:61-68 *)
  Definition dd_shared_load (max_dim : nat) (m : list F) : outcome (dd_shared F) :=
    let dim := length m in
    let* _ := dassert (dim <=? max_dim)%nat in
    let* alphas := vfor 0 dim (fun i a => let* x := vget m i in Ok (a ++ [x])) [] in
    Ok (mk_dd_shared alphas).
  (** dd.hpp:95-111; count_sum is not in the message but added up again, in count_t (int)
      arithmetic *)
  Definition dd_dump (g : dd_group) : list Z := map as_size (dd_counts g).
  (** dd.hpp:95-104 *)
  Definition dd_load (max_dim : nat) (m : list Z) : outcome dd_group :=
    let dim := length m in
    let* _ := dassert (dim <=? max_dim)%nat in
    vfor 0 dim (fun i g =>
      let* x := vget m i in
      let c := as_int x in
      let* s := i32 (dd_count_sum g + c) in
      Ok (mk_dd (dd_counts g ++ [c]) s)) (mk_dd [] 0).

  (** dpd.hpp:172-180; [order] is the order in which the counts are visited *)
  Record dpd_msg := mk_dpd_msg { pm_keys : list Z; pm_values : list Z }.
  (** dpd.hpp:172-180 *)
  Definition dpd_dump (order : list (Z * Z)) : dpd_msg :=
    mk_dpd_msg (map fst order) (map (fun kv => as_size (snd kv)) order).
  (** dpd.hpp:160-170; values(i) beyond its size is undefined *)
  Fixpoint dpd_load_loop (keys values : list Z) (c : counter) : outcome counter :=
    match keys, values with
    | [], _ => Ok c
    | _ :: _, [] => UB
    | k :: ks, v :: vs => let* r := ctr_add c k (as_int v) in dpd_load_loop ks vs (fst r)
    end.
  (** dpd.hpp:160-170 *)
  Definition dpd_load (dl : nat) (old : counter) (m : dpd_msg) : outcome counter :=
    let* _ := dassert_at dl 1 (length (pm_keys m) =? length (pm_values m))%nat in
    dpd_load_loop (pm_keys m) (pm_values m) (ctr_clear old).

  (** Clustering: PitmanYor, clustering.hpp:62-72 *)
  Record py_msg := mk_py_msg { ym_alpha : F; ym_d : F }.
  (** clustering.hpp:68-72 *)
  Definition py_dump (c : py F) := mk_py_msg (alpha c) (disc c).
  (** clustering.hpp:63-66 *)
  Definition py_load (m : py_msg) : py F := mk_py (ym_alpha m) (ym_d m).
  (** LowEntropy, clustering.hpp:248-256; dataset_size is count_t (int), its field uint64 *)
  Definition le_dump (dataset_size : Z) : Z := as_size dataset_size.
  (** clustering.hpp:248-251 *)
  Definition le_load (m : Z) : Z := as_int m.
End Small.
Arguments bb_shared_msg : clear implicits. Arguments gp_shared_msg : clear implicits. Arguments gp_msg : clear implicits.
Arguments bnb_shared_msg : clear implicits. Arguments nich_shared_msg : clear implicits. Arguments nich_msg : clear implicits.
Arguments py_msg : clear implicits.

Section Wishart.
  Context {F : Set} {N : Num F}.
  Local Open Scope num_scope.

  (** Model only: a loop collecting results (niw.hpp:105-234). *)
  Fixpoint omap {A B} (f : A -> outcome B) (l : list A) : outcome (list B) :=
    match l with
    | [] => Ok []
    | a :: l' => let* b := f a in let* r := omap f l' in Ok (b :: r)
    end.
  (** m.transpose() of a square matrix (niw.hpp:46). *)
  Definition m_transpose (d : nat) (m : mat) : outcome (mat (F:=F)) := omap (fun j => omap (fun row => vget row j) m) (seq 0 d).
  (** m.cwiseAbs2().sum(); the order of summation is Eigen's choice (Eigen isApprox, called at niw.hpp:46). *)
  Definition sq_sum (m : mat (F:=F)) : F := fold_left nadd (map (fun e => e * e) (concat m)) (nof 0).
  (** is_symmetric, niw.hpp:43-50: m.isApprox(m.transpose()), that is
      |m - m'|^2 <= prec^2 min(|m|^2, |m'|^2) with prec = 1e-5f *)
  Definition is_symmetric (d : nat) (m : mat) : outcome bool :=
    let* t := m_transpose d m in
    let* diff := m_bin nsub m t in
    let prec := nlit 1 100000 in
    Ok (sq_sum diff <=? prec * prec * fmin (sq_sum m) (sq_sum t)).
  (** is_symmetric_positive_definite, niw.hpp:52-61; [ldlt] stands for Eigen's
      LDLT(m).isPositive() *)
  Definition is_spd (ldlt : mat -> bool) (d : nat) (m : mat) : outcome bool :=
    let* s := is_symmetric d m in
    Ok (if s then ldlt m else false).
  (** DIST_ASSERT3 of niw.hpp:127, 214 *)
  Definition dassert3 (dl : nat) (b : outcome bool) : outcome unit :=
    if (3 <=? dl)%nat then let* b := b in dassert b else Ok tt.

  (** for i < d: v(i) = message.v(i) (niw.hpp:110-113, 200-203). *)
  Definition load_vec (d : nat) (l : list F) : outcome vec :=
    vfor 0 d (fun i v => let* x := vget l i in Ok (v ++ [x])) [].
  (** for i, j < d: m(i, j) = message.m(i * d + j) (niw.hpp:121-126, 207-212). *)
  Definition load_mat (d : nat) (l : list F) : outcome mat :=
    vfor 0 d (fun i m =>
      let* row := vfor 0 d (fun j r => let* x := vget l (i * d + j)%nat in Ok (r ++ [x])) [] in
      Ok (m ++ [row])) [].

  (** niw.hpp:105-156, dim_ = -1 (check_row_or_col_size, 173-180: size > 0) *)
  Record niw_shared_msg := mk_niw_shared_msg { wsm_mu : list F; wsm_kappa : F; wsm_psi : list F; wsm_nu : F }.
  (** niw.hpp:136-156 *)
  Definition niw_shared_dump (sh : niw_shared F) :=
    mk_niw_shared_msg (nw_mu sh) (nw_kappa sh) (concat (nw_psi sh)) (nw_nu sh).
  (** niw.hpp:105-134 *)
  Definition niw_shared_load (ldlt : mat -> bool) (dl : nat) (m : niw_shared_msg) : outcome (niw_shared F) :=
    let dim := length (wsm_mu m) in
    let* _ := dassert (0 <? dim)%nat in
    let* mu := load_vec dim (wsm_mu m) in
    let* _ := dassert (nof 0 <? wsm_kappa m) in
    let* _ := dassert (dim * dim =? length (wsm_psi m))%nat in
    let* psi := load_mat dim (wsm_psi m) in
    let* _ := dassert3 dl (is_spd ldlt dim psi) in
    let* _ := dassert (length mu =? length psi)%nat in
    let* _ := dassert (nof (Z.of_nat dim) - nof 1 <? wsm_nu m) in
    Ok (mk_niw_shared mu (wsm_kappa m) psi (wsm_nu m)).
  (** niw.hpp:192-234; count is an int32 field *)
  Record niw_msg := mk_niw_msg { wm_count : Z; wm_sum_x : list F; wm_sum_xxT : list F }.
  (** niw.hpp:218-234 *)
  Definition niw_dump (g : niw_group F) := mk_niw_msg (nw_count g) (nw_sum_x g) (concat (nw_sum_xxT g)).
  (** niw.hpp:192-216 *)
  Definition niw_load (dl : nat) (m : niw_msg) : outcome (niw_group F) :=
    let dim := length (wm_sum_x m) in
    let* _ := dassert (0 <? dim)%nat in
    let* sum_x := load_vec dim (wm_sum_x m) in
    let* _ := dassert (dim * dim =? length (wm_sum_xxT m))%nat in
    let* sum_xxT := load_mat dim (wm_sum_xxT m) in
    let* _ := dassert3 dl (is_symmetric dim sum_xxT) in
    let* _ := dassert (length sum_x =? length sum_xxT)%nat in
    Ok (mk_niw (wm_count m) sum_x sum_xxT).
End Wishart.
Arguments niw_shared_msg : clear implicits. Arguments niw_msg : clear implicits.
