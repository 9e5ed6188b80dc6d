(** The Python reference implementation, distributions/dbg (Python 2: integer division where both
    operands are integers), and the double-precision one in Cython, distributions/hp.  An
    exception is [Fail].  math.log of a non-positive number raises there; here nlog is total, as
    in the model of the C++.  numpy's 64-bit counters are unbounded here. *)
From Verif.model Require Import Base Num Component BB GP BNB NICH DD NIW.

(** numpy indexing a[i], read: a negative index counts from the end, IndexError out of range
    (dbg/models/dd.py:82-89). *)
Definition py_index (n : nat) (i : Z) : outcome nat :=
  let j := (if i <? 0 then i + Z.of_nat n else i)%Z in
  if ((0 <=? j) && (j <? Z.of_nat n))%Z then Ok (Z.to_nat j) else Fail.
(** the element, dbg/models/dd.py:99 *)
Definition py_get {A} (l : list A) (i : Z) : outcome A :=
  let* j := py_index (length l) i in vget l j.

Section Dbg.
  Context {F : Type} {N : Num F}.
  Local Open Scope num_scope.

  (** ** BetaBernoulli, dbg/models/bb.py *)
  (** Group.__init__, bb.py:72-74: the fields are Python integers *)
  Record py_bb := mk_py_bb { pbb_heads : Z; pbb_tails : Z }.
  (** the branches of bb.py:80-96 *)
  Definition py_bb_bump (g : py_bb) (v : bool) (n : Z) : outcome py_bb :=
    if v then Ok (mk_py_bb (pbb_heads g + n) (pbb_tails g))
    else Ok (mk_py_bb (pbb_heads g) (pbb_tails g + n)).
  (** class Group, bb.py:71-100: init 76-78, add_value 80-84, add_repeated_value 86-90,
      remove_value 92-96, merge 98-100 *)
  Definition PyBB : component := {|
    shared_t := bb_shared F; group_t := py_bb; value_t := bool;
    c_init _ := mk_py_bb 0 0;
    c_add _ _ g v := py_bb_bump g v 1;
    c_rep _ _ g v n := py_bb_bump g v n;
    c_rem _ _ g v := py_bb_bump g v (-1);
    c_merge _ _ g src := Ok (mk_py_bb (pbb_heads g + pbb_heads src) (pbb_tails g + pbb_tails src)) |}.
  (** score_value, bb.py:102-111 *)
  Definition py_bb_score_value (sh : bb_shared F) (g : py_bb) (v : bool) : F :=
    let heads := bb_alpha sh + nof (pbb_heads g) in
    let tails := bb_beta sh + nof (pbb_tails g) in
    let numer := if v then heads else tails in
    let denom := heads + tails in
    nlog (numer / denom).
  (** score_data, bb.py:113-125 *)
  Definition py_bb_score_data (sh : bb_shared F) (g : py_bb) : F :=
    let alpha := bb_alpha sh + nof (pbb_heads g) in
    let beta := bb_beta sh + nof (pbb_tails g) in
    let score := nlgamma (bb_alpha sh + bb_beta sh) - nlgamma (alpha + beta) in
    let score := score + (nlgamma alpha - nlgamma (bb_alpha sh)) in
    score + (nlgamma beta - nlgamma (bb_beta sh)).

  (** ** GammaPoisson, dbg/models/gp.py *)
  (** Group.__init__, gp.py:75-78 *)
  Record py_gp := mk_py_gp { pgp_count : Z; pgp_sum : Z; pgp_log_prod : F }.
  (** log(factorial(value)), gp.py:88, 93, 98: factorial raises on a negative argument *)
  Definition py_log_factorial (v : Z) : outcome F := if (v <? 0)%Z then Fail else Ok (nlogfact v).
  (** class Group, gp.py:74-103: init 80-83, add_value 85-88, add_repeated_value 90-93,
      remove_value 95-98, merge 100-103 *)
  Definition PyGP : component := {|
    shared_t := gp_shared F; group_t := py_gp; value_t := Z;
    c_init _ := mk_py_gp 0 0 (nof 0);
    c_add _ _ g v := let* f := py_log_factorial v in
      Ok (mk_py_gp (pgp_count g + 1) (pgp_sum g + v) (pgp_log_prod g + f));
    c_rep _ _ g v n := let* f := py_log_factorial v in
      Ok (mk_py_gp (pgp_count g + n) (pgp_sum g + n * v) (pgp_log_prod g + nof n * f));
    c_rem _ _ g v := let* f := py_log_factorial v in
      Ok (mk_py_gp (pgp_count g - 1) (pgp_sum g - v) (pgp_log_prod g - f));
    c_merge _ _ g src :=
      Ok (mk_py_gp (pgp_count g + pgp_count src) (pgp_sum g + pgp_sum src)
            (pgp_log_prod g + pgp_log_prod src)) |}.
  (** Shared.plus_group, gp.py:48-52 *)
  Definition py_gp_plus_group (sh : gp_shared F) (g : py_gp) : gp_shared F :=
    mk_gp_shared (gp_alpha sh + nof (pgp_sum g)) (gp_inv_beta sh + nof (pgp_count g)).
  (** score_value, gp.py:105-110 *)
  Definition py_gp_score_value (sh : gp_shared F) (g : py_gp) (v : Z) : outcome F :=
    let post := py_gp_plus_group sh g in
    let* f := py_log_factorial v in
    Ok (nlgamma (gp_alpha post + nof v) - nlgamma (gp_alpha post)
        + gp_alpha post * nlog (gp_inv_beta post)
        - (gp_alpha post + nof v) * nlog (nlit 1 1 + gp_inv_beta post)
        - f).
  (** score_data, gp.py:112-117 *)
  Definition py_gp_score_data (sh : gp_shared F) (g : py_gp) : F :=
    let post := py_gp_plus_group sh g in
    nlgamma (gp_alpha post) - nlgamma (gp_alpha sh)
      - gp_alpha post * nlog (gp_inv_beta post)
      + gp_alpha sh * nlog (gp_inv_beta sh)
      - pgp_log_prod g.

  (** ** BetaNegativeBinomial, dbg/models/bnb.py *)
  (** Group.__init__, bnb.py:97-99 *)
  Record py_bnb := mk_py_bnb { pbn_count : Z; pbn_sum : Z }.
  (** class Group, bnb.py:96-119: init 101-103, add_value 105-107, add_repeated_value 109-111,
      remove_value 113-115, merge 117-119 *)
  Definition PyBNB : component := {|
    shared_t := bnb_shared F; group_t := py_bnb; value_t := Z;
    c_init _ := mk_py_bnb 0 0;
    c_add _ _ g v := Ok (mk_py_bnb (pbn_count g + 1) (pbn_sum g + v));
    c_rep _ _ g v n := Ok (mk_py_bnb (pbn_count g + n) (pbn_sum g + n * v));
    c_rem _ _ g v := Ok (mk_py_bnb (pbn_count g - 1) (pbn_sum g - v));
    c_merge _ _ g src := Ok (mk_py_bnb (pbn_count g + pbn_count src) (pbn_sum g + pbn_sum src)) |}.
  (** Shared.plus_group, bnb.py:65-70; r * count is an integer product *)
  Definition py_bnb_plus_group (sh : bnb_shared F) (g : py_bnb) : bnb_shared F :=
    mk_bnb_shared (bnb_alpha sh + nof (bnb_r sh * pbn_count g)) (bnb_beta sh + nof (pbn_sum g)) (bnb_r sh).
  (** score_value, bnb.py:121-129 *)
  Definition py_bnb_score_value (sh : bnb_shared F) (g : py_bnb) (v : Z) : F :=
    let post := py_bnb_plus_group sh g in
    let alpha := bnb_alpha post + nof (bnb_r sh) in
    let beta := bnb_beta post + nof v in
    let score := nlgamma (bnb_alpha post + bnb_beta post) in
    let score := score - nlgamma (alpha + beta) in
    let score := score + (nlgamma alpha - nlgamma (bnb_alpha post)) in
    score + (nlgamma beta - nlgamma (bnb_beta post)).
  (** score_data, bnb.py:131-137 *)
  Definition py_bnb_score_data (sh : bnb_shared F) (g : py_bnb) : F :=
    let post := py_bnb_plus_group sh g in
    let score := nlgamma (bnb_alpha sh + bnb_beta sh) in
    let score := score - nlgamma (bnb_alpha post + bnb_beta post) in
    let score := score + (nlgamma (bnb_alpha post) - nlgamma (bnb_alpha sh)) in
    score + (nlgamma (bnb_beta post) - nlgamma (bnb_beta sh)).

  (** ** NormalInverseChiSq, dbg/models/nich.py *)
  (** Group.__init__, nich.py:124-127 *)
  Record py_nich := mk_py_nich { pni_count : Z; pni_mean : F; pni_ctv : F }.
  (** x / n for an integer n: ZeroDivisionError (nich.py:137, 143, 162) *)
  Definition py_div (x : F) (n : Z) : outcome F := if (n =? 0)%Z then Fail else Ok (x / nof n).
  (** add_value, nich.py:134-138 *)
  Definition py_nich_add (g : py_nich) (v : F) : outcome py_nich :=
    let count := (pni_count g + 1)%Z in
    let delta := v - pni_mean g in
    let* q := py_div delta count in
    let mean := pni_mean g + q in
    Ok (mk_py_nich count mean (pni_ctv g + delta * (v - mean))).
  (** add_repeated_value, nich.py:140-144 *)
  Definition py_nich_rep (g : py_nich) (v : F) (n : Z) : outcome py_nich :=
    let count := (pni_count g + n)%Z in
    let delta := nof n * v - pni_mean g in
    let* q := py_div delta count in
    let mean := pni_mean g + q in
    Ok (mk_py_nich count mean (pni_ctv g + delta * (v - mean))).
  (** remove_value, nich.py:146-157 *)
  Definition py_nich_rem (g : py_nich) (v : F) : outcome py_nich :=
    let total := pni_mean g * nof (pni_count g) in
    let delta := v - pni_mean g in
    let count := (pni_count g - 1)%Z in
    let mean := if (count =? 0)%Z then nlit 0 1 else (total - v) / nof count in
    let ctv := if (count <=? 1)%Z then nlit 0 1 else pni_ctv g - delta * (v - mean) in
    Ok (mk_py_nich count mean ctv).
  (** merge, nich.py:159-167 *)
  Definition py_nich_merge (g src : py_nich) : outcome py_nich :=
    let count := (pni_count g + pni_count src)%Z in
    let delta := pni_mean src - pni_mean g in
    let* source_part := py_div (nof (pni_count src)) count in
    let cross_part := nof (pni_count g) * source_part in
    Ok (mk_py_nich count (pni_mean g + source_part * delta)
          (pni_ctv g + (pni_ctv src + cross_part * delta * delta))).
  (** class Group, nich.py:123-167: init 129-132 *)
  Definition PyNICH : component := {|
    shared_t := nich_shared F; group_t := py_nich; value_t := F;
    c_init _ := mk_py_nich 0 (nlit 0 1) (nlit 0 1);
    c_add _ _ := py_nich_add; c_rep _ _ := py_nich_rep; c_rem _ _ := py_nich_rem; c_merge _ _ := py_nich_merge |}.
  (** Shared.plus_group, nich.py:74-93 *)
  Definition py_nich_plus_group (sh : nich_shared F) (g : py_nich) : nich_shared F :=
    let total := pni_mean g * nof (pni_count g) in
    let mu_1 := ni_mu sh - pni_mean g in
    let kappa_n := ni_kappa sh + nof (pni_count g) in
    let mu_n := (ni_kappa sh * ni_mu sh + total) / kappa_n in
    let nu_n := ni_nu sh + nof (pni_count g) in
    let sigmasq_n := nlit 1 1 / nu_n *
      (ni_nu sh * ni_sigmasq sh + pni_ctv g
       + (nof (pni_count g) * ni_kappa sh * mu_1 * mu_1) / kappa_n) in
    mk_nich_shared mu_n kappa_n sigmasq_n nu_n.
  (** score_student_t, nich.py:45-54; [pi] is math.pi *)
  Definition py_student_t (pi x nu mu sigmasq : F) : F :=
    let score := nlgamma (nlit 1 2 * (nu + nlit 1 1)) - nlgamma (nlit 1 2 * nu) in
    let score := score - nlit 1 2 * nlog (nu * pi * sigmasq) in
    let xt := x - mu in
    let s := xt * xt / sigmasq in
    score + - (nlit 1 2 * (nu + nlit 1 1)) * nlog (nlit 1 1 + s / nu).
  (** score_value, nich.py:169-178 *)
  Definition py_nich_score_value (pi : F) (sh : nich_shared F) (g : py_nich) (v : F) : F :=
    let post := py_nich_plus_group sh g in
    py_student_t pi v (ni_nu post) (ni_mu post)
      (((nof 1 + ni_kappa post) * ni_sigmasq post) / ni_kappa post).
  (** score_data, nich.py:180-189 *)
  Definition py_nich_score_data (sh : nich_shared F) (g : py_nich) : F :=
    let post := py_nich_plus_group sh g in
    nlgamma (ni_nu post / nof 2) - nlgamma (ni_nu sh / nof 2)
      + nlit 1 2 * nlog (ni_kappa sh / ni_kappa post)
      + (nlit 1 2 * ni_nu sh) * nlog (ni_nu sh * ni_sigmasq sh)
      - (nlit 1 2 * ni_nu post) * nlog (ni_nu post * ni_sigmasq post)
      - nof (pni_count g) / nof 2 * nlit 11447298858493991 10000000000000000.

  (** ** DirichletDiscrete, dbg/models/dd.py; a group is its list of counts (dd.py:76-80) *)
  (** the updates of dd.py:82-89 *)
  Definition py_dd_bump (g : list Z) (v n : Z) : outcome (list Z) :=
    let* j := py_index (length g) v in
    let* c := vget g j in
    vset g j (c + n)%Z.
  (** merge, dd.py:91-92; arrays of different lengths do not add (broadcasting of one-element
      arrays not modelled) *)
  Definition py_dd_merge (g src : list Z) : outcome (list Z) :=
    if (length g =? length src)%nat then Ok (map (fun p => fst p + snd p)%Z (combine g src)) else Fail.
  (** class Group, dd.py:75-92: init 79-80, add_value 82-83, add_repeated_value 85-86,
      remove_value 88-89 *)
  Definition PyDD : component := {|
    shared_t := dd_shared F; group_t := list Z; value_t := Z;
    c_init sh := repeat 0%Z (dd_dim sh);
    c_add _ _ g v := py_dd_bump g v 1;
    c_rep _ _ g v n := py_dd_bump g v n;
    c_rem _ _ g v := py_dd_bump g v (-1);
    c_merge _ _ := py_dd_merge |}.
  (** ndarray.sum of floats and of integers (dd.py:100, 116-117) *)
  Definition py_fsum (l : list F) : F := fold_left nadd l (nof 0).
  (** ndarray.sum of integers (dd.py:100, 117) *)
  Definition py_zsum (l : list Z) : Z := fold_left Z.add l 0%Z.
  (** score_value, dd.py:94-101 *)
  Definition py_dd_score_value (sh : dd_shared F) (g : list Z) (v : Z) : outcome F :=
    let* c := py_get g v in
    let* a := py_get (dd_alphas sh) v in
    let numer := nof c + a in
    let denom := nof (py_zsum g) + py_fsum (dd_alphas sh) in
    Ok (nlog (numer / denom)).
  (** score_data, dd.py:103-118 *)
  Definition py_dd_score_data (sh : dd_shared F) (g : list Z) : outcome F :=
    let* terms := (fix go (a : list F) (m : list Z) : outcome (list F) :=
      match a, m with
      | [], _ => Ok []
      | a :: a', m :: m' => let* r := go a' m' in Ok ((nlgamma (a + nof m) - nlgamma a) :: r)
      | _ :: _, [] => Fail
      end) (dd_alphas sh) g in
    let score := py_fsum terms in
    let score := score + nlgamma (py_fsum (dd_alphas sh)) in
    Ok (score - nlgamma (py_fsum (dd_alphas sh) + nof (py_zsum g))).

  (** ** LowEntropy, dbg/clustering.py *)
  (** _approximate_postpred_correction, clustering.py:273-284: dataset_size / sample_size is a
      division of integers *)
  Definition py_le_postpred (dataset_size n : Z) : outcome F :=
    let* _ := dassert (0 <? n)%Z in
    let* _ := dassert (n <? dataset_size)%Z in
    let exponent := nlit 45 100 - nlit 1 10 / nof n - nlit 1 10 / nof dataset_size in
    let scale := (dataset_size / n)%Z in
    Ok (nlog (nof scale) * exponent).
  (** score_add_value, clustering.py:170-210 *)
  Definition py_le_score_add (dataset_size group_size n empty : Z) : outcome F :=
    let* _ := dassert (n <? dataset_size)%Z in
    let* _ := dassert (0 <? empty)%Z in
    if (group_size =? 0)%Z then
      let score := - nlog (nof empty) in
      if (n + 1 <? dataset_size)%Z then
        let* c := py_le_postpred dataset_size (n + 1) in Ok (score + c)
      else Ok score
    else
      let bigger := nlit 1 1 + nof group_size in
      if (10000 <? group_size)%Z then Ok (nlit 1 1 + nlog bigger)
      else Ok (nlog (bigger / nof group_size) * nof group_size + nlog bigger).
  (** score_remove_value, clustering.py:212-233 *)
  Definition py_le_score_remove (dataset_size group_size n empty : Z) : outcome F :=
    let* _ := dassert (0 <? n)%Z in
    let* s := py_le_score_add dataset_size (group_size - 1) n empty in
    Ok (- s).
  (** _approximate_dataprob_correction, clustering.py:286-294 *)
  Definition py_le_dataprob (dataset_size n : Z) : F :=
    let a := nlog (nof n) in
    let b := nlog (nof dataset_size) in
    nlit 61 1000 * a * (a - b) * npow (a + b) (nlit 75 100).
  (** log_partition_function, clustering.py:239-256; a negative index counts from the end of the table *)
  Definition py_le_log_partition (table : list F) (n : Z) : outcome F :=
    if (n <? 48)%Z then py_get table n
    else
      let log_z_max := nof n * nlog (nof n) in
      Ok (log_z_max * (nlit 1 1 + nlit 28269584 100000000 * npow (nof n) (nlit (-75) 100))).
  (** score_counts, clustering.py:148-168 *)
  Definition py_le_score_counts (table : list F) (dataset_size : Z) (cs : list Z) : outcome F :=
    let n := py_zsum cs in
    let score := fold_left (fun s c => if (1 <? c)%Z then s + nof c * nlog (nof c) else s) cs (nof 0) in
    let* _ := dassert (n <=? dataset_size)%Z in
    let* score :=
      if negb (n =? dataset_size)%Z then
        let* log_factor := py_le_postpred dataset_size n in
        let score := score + log_factor * nof (Z.of_nat (length cs) - 1) in
        Ok (score + py_le_dataprob dataset_size n)
      else Ok score in
    let* lp := py_le_log_partition table n in
    Ok (score - lp).

  (** scores_to_probs, distributions/util.py:33-38; an empty array has no maximum (ValueError) *)
  Definition py_scores_to_probs (scores : list F) : outcome (list F) :=
    match scores with
    | [] => Fail
    | x :: t =>
        let m := fold_left (fun a b => if a <? b then b else a) t x in
        let probs := map (fun s => nexp (s - m)) scores in
        let total := py_fsum probs in
        Ok (map (fun p => p / total) probs)
    end.

  (** ** The Cython flavour, distributions/hp: int counters, double arithmetic *)
  (** log_factorial, hp/special.pyx:31-32; n + 1 is unsigned *)
  Definition hp_log_factorial (v : Z) : F := nlgamma (nof (u32 (v + 1))).
  (** GammaPoisson Group, hp/models/gp.pyx:74-102: count and sum are int; the int value becomes
      unsigned in log_factorial *)
  Definition HpGP : component := {|
    shared_t := gp_shared F; group_t := py_gp; value_t := Z;
    c_init _ := mk_py_gp 0 0 (nof 0);
    c_add _ _ g v := let* c := i32 (pgp_count g + 1) in let* s := i32 (pgp_sum g + v) in
      Ok (mk_py_gp c s (pgp_log_prod g + hp_log_factorial (u32 v)));
    c_rep _ _ g v n := let* c := i32 (pgp_count g + n) in let* p := i32 (n * v) in let* s := i32 (pgp_sum g + p) in
      Ok (mk_py_gp c s (pgp_log_prod g + nof n * hp_log_factorial (u32 v)));
    c_rem _ _ g v := let* c := i32 (pgp_count g - 1) in let* s := i32 (pgp_sum g - v) in
      Ok (mk_py_gp c s (pgp_log_prod g - hp_log_factorial (u32 v)));
    c_merge _ _ g src := let* c := i32 (pgp_count g + pgp_count src) in let* s := i32 (pgp_sum g + pgp_sum src) in
      Ok (mk_py_gp c s (pgp_log_prod g + pgp_log_prod src)) |}.
  (** score_value, hp/models/gp.pyx:104-109 *)
  Definition hp_gp_score_value (sh : gp_shared F) (g : py_gp) (v : Z) : F :=
    let post := py_gp_plus_group sh g in
    nlgamma (gp_alpha post + nof v) - nlgamma (gp_alpha post)
      + gp_alpha post * nlog (gp_inv_beta post)
      - (gp_alpha post + nof v) * nlog (nlit 1 1 + gp_inv_beta post)
      - hp_log_factorial (u32 v).
  (** score_data, hp/models/gp.pyx:111-116 *)
  Definition hp_gp_score_data (sh : gp_shared F) (g : py_gp) : F :=
    let post := py_gp_plus_group sh g in
    nlgamma (gp_alpha post) - nlgamma (gp_alpha sh)
      + gp_alpha sh * nlog (gp_inv_beta sh)
      - gp_alpha post * nlog (gp_inv_beta post)
      - pgp_log_prod g.
  (** DirichletDiscrete Group, hp/models/dd.pyx:81-106: int counts[256], the first [dim] of which are
      initialised; a subscript outside them is undefined *)
  Definition hp_dd_bump (g : list Z) (v n : Z) : outcome (list Z) :=
    let* c := zget g v in let* c := i32 (c + n) in zset g v c.
  (** merge, hp/models/dd.pyx:103-106 *)
  Fixpoint hp_dd_merge (g src : list Z) : outcome (list Z) :=
    match g, src with
    | [], _ => Ok []
    | c :: g', d :: src' => let* e := i32 (c + d) in let* r := hp_dd_merge g' src' in Ok (e :: r)
    | _ :: _, [] => UB
    end.
  (** cdef class _Group, hp/models/dd.pyx:81-106 *)
  Definition HpDD : component := {|
    shared_t := dd_shared F; group_t := list Z; value_t := Z;
    c_init sh := repeat 0%Z (dd_dim sh);
    c_add _ _ g v := hp_dd_bump g v 1;
    c_rep _ _ g v n := hp_dd_bump g v n;
    c_rem _ _ g v := hp_dd_bump g v (-1);
    c_merge _ _ := hp_dd_merge |}.
  (** score_value, hp/models/dd.pyx:108-116 *)
  Definition hp_dd_score_value (sh : dd_shared F) (g : list Z) (v : Z) : outcome F :=
    let* total := (fix go (a : list F) (m : list Z) (t : F) : outcome F :=
      match a, m with
      | [], _ => Ok t
      | a :: a', m :: m' => go a' m' (t + (nof m + a))
      | _ :: _, [] => UB
      end) (dd_alphas sh) g (nof 0) in
    let* c := zget g v in
    let* a := zget (dd_alphas sh) v in
    Ok (nlog ((nof c + a) / total)).
  (** score_data, hp/models/dd.pyx:118-135: the three loops run over the same index range *)
  Definition hp_dd_score_data (sh : dd_shared F) (g : list Z) : outcome F :=
    let alpha_sum := py_fsum (dd_alphas sh) in
    let* r := (fix go (a : list F) (m : list Z) (t : F) (n : Z) : outcome (F * Z) :=
      match a, m with
      | [], _ => Ok (t, n)
      | a :: a', m :: m' =>
          let* n := i32 (n + m) in
          go a' m' (t + (nlgamma (a + nof m) - nlgamma a)) n
      | _ :: _, [] => UB
      end) (dd_alphas sh) g (nof 0) 0%Z in
    Ok (fst r + nlgamma alpha_sum - nlgamma (alpha_sum + nof (snd r))).
  (** score_student_t, hp/models/nich.pyx:48-57 *)
  Definition hp_student_t (pi x nu mu sigmasq : F) : F :=
    let c := nlgamma (nlit 1 2 * (nu + nlit 1 1))
             - (nlgamma (nlit 1 2 * nu) + nlit 1 2 * nlog (nu * pi * sigmasq)) in
    let xt := x - mu in
    let s := xt * xt / sigmasq in
    let d := - (nlit 1 2 * (nu + nlit 1 1)) * nlog (nlit 1 1 + s / nu) in
    c + d.
  (** score_value, hp/models/nich.pyx:164-173 (plus_group, 79-98, computes what dbg/models/nich.py:74-93 does) *)
  Definition hp_nich_score_value (pi : F) (sh : nich_shared F) (g : py_nich) (v : F) : F :=
    let post := py_nich_plus_group sh g in
    hp_student_t pi v (ni_nu post) (ni_mu post)
      (((nof 1 + ni_kappa post) * ni_sigmasq post) / ni_kappa post).
End Dbg.
Arguments py_gp : clear implicits.
Arguments py_nich : clear implicits.
Arguments PyBB F : clear implicits. Arguments PyGP F {N}. Arguments PyBNB F : clear implicits.
Arguments PyNICH F {N}. Arguments PyDD F : clear implicits.
Arguments HpGP F {N}. Arguments HpDD F : clear implicits.
