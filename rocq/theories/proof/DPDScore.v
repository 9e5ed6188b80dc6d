(** Dirichlet-process-discrete scores in exact arithmetic. *)
From Coq Require Import Permutation Reals Lra.
From Verif.spec Require Import GroupSpec GaussSpec LgammaSpec.
From Verif.model Require Import Base Num NumR Component Slave Sparse DPD.
From Verif.proof Require Import BaseProof GroupProof.
From stdpp Require Import gmap.
From Verif.proof Require Import MapSum DPDProof.
Local Open Scope R_scope.

Lemma as_size_small z : (0 <= z < 18446744073709551616)%Z -> as_size z = z.
Proof. intro H. unfold as_size. now apply Z.mod_small. Qed.
Lemma as_size_short {A} (l : list A) : short l -> as_size (Z.of_nat (length l)) = Z.of_nat (length l).
Proof. intro H. unfold short in H. apply as_size_small. lia. Qed.

Definition beta_of (sh : dpd_shared R) (v : Z) : R := match dp_betas sh !! v with Some b => b | None => 0 end.
Definition positive_betas (sh : dpd_shared R) : Prop := forall v b, dp_betas sh !! v = Some b -> 0 < b.

Lemma sp_get_some {V} dl (m : gmap Z V) k v : m !! k = Some v -> sp_get dl m k = Ok v.
Proof. intro E. unfold sp_get, sp_find. now rewrite E. Qed.
Lemma sp_get_none {V W} dl (m : gmap Z V) (m' : gmap Z W) k : m !! k = None -> m' !! k = None ->
  sp_get dl m k = UB /\ sp_get dl m' k = UB \/ sp_get dl m k = Fail /\ sp_get dl m' k = Fail.
Proof.
  intros E E'. unfold sp_get, sp_find. rewrite E, E'. unfold dassert_at. destruct (1 <=? dl)%nat; cbn; auto.
Qed.
Lemma known_beta dl (sh : dpd_shared R) v : dpd_known sh v -> sp_get dl (dp_betas sh) v = Ok (beta_of sh v).
Proof. intros [_ H]. unfold beta_of. destruct (dp_betas sh !! v) eqn:E; [now apply sp_get_some|congruence]. Qed.
Lemma known_pos (sh : dpd_shared R) v : positive_betas sh -> dpd_known sh v -> 0 < beta_of sh v.
Proof. intros P [_ H]. unfold beta_of. destruct (dp_betas sh !! v) eqn:E; [eapply P, E|congruence]. Qed.

(** Sums over the counts of a data set. *)
Lemma msum_dmap_cons (f : Z -> Z -> R) l v :
  msum f (dmap (v :: l)) = msum f (dmap l) + (f v (zcount l v + 1)%Z - (if (zcount l v =? 0)%Z then 0 else f v (zcount l v))).
Proof.
  cbn [dmap]. rewrite zcount_cons, Z.eqb_refl. destruct (Z.eqb_spec (zcount l v) 0) as [E|E].
  - rewrite msum_insert; [rewrite E; lra|]. rewrite dmap_lookup, E. reflexivity.
  - rewrite (msum_update f _ v (zcount l v)); [reflexivity|]. rewrite dmap_lookup.
    destruct (Z.eqb_spec (zcount l v) 0); [contradiction|reflexivity].
Qed.
Lemma dmap_in l v c : dmap l !! v = Some c -> In v l /\ c = zcount l v.
Proof.
  rewrite dmap_lookup. destruct (Z.eqb_spec (zcount l v) 0); [discriminate|]. intro E; injection E as <-.
  split; [|reflexivity]. apply zcount_pos. pose proof (zcount_nonneg l v). lia.
Qed.
Lemma msum_counts {V} (m : gmap Z V) l : List.Forall (fun v => m !! v <> None) l ->
  msum (fun v _ => IZR (zcount l v)) m = IZR (Z.of_nat (length l)).
Proof.
  induction 1 as [|v l Hv Hl IH].
  - rewrite (msum_ext _ (fun _ _ => 0)); [apply msum_zero|]. reflexivity.
  - rewrite (msum_ext _ (fun k _ => IZR (zcount l k) + (if (k =? v)%Z then 1 else 0))).
    + rewrite msum_plus, IH. destruct (m !! v) as [w|] eqn:E; [|congruence].
      rewrite (msum_at _ m v w); [|intros j ? _ Hj; destruct (Z.eqb_spec j v); [congruence|reflexivity]|exact E].
      rewrite Z.eqb_refl. cbn [length]. rewrite Nat2Z.inj_succ, succ_IZR. lra.
    + intros k _ _. rewrite zcount_cons. destruct (Z.eqb_spec k v) as [->|]; [now rewrite plus_IZR|lra].
Qed.

Section S.
  Variable lg : R -> R.
  Let NR : Num R := NumR lg.
  Existing Instance NR.
  Variables (dl : nat) (sh : dpd_shared R).
  Notation D := (DPD R).
  Notation alpha := (dp_alpha sh).

  Definition dpd_sd (g : counter) : R :=
    msum (fun v c => lg (alpha * beta_of sh v + IZR c) - lg (alpha * beta_of sh v)) (cmap g) +
    (lg alpha - lg (alpha + match ctotal g with Some t => IZR t | None => 0 end)).

  Lemma dpd_score_loop_eq order : (forall v c, In (v, c) order -> dpd_known sh v) -> forall s,
    dpd_score_loop dl sh order s =
    Ok (s + rsum (map (fun vc => lg (alpha * beta_of sh vc.1 + IZR vc.2) - lg (alpha * beta_of sh vc.1)) order)).
  Proof.
    induction order as [|[v c] order IH]; intros H s; cbn [dpd_score_loop map rsum].
    - f_equal. lra.
    - rewrite known_beta by (eapply H; now left). cbn [obind]. rewrite IH by (intros; eapply H; right; eauto).
      f_equal. cbn [nadd nsub nmul nlgamma nof NR NumR fst snd]. lra.
  Qed.
  Lemma order_known l order : List.Forall (dpd_known sh) l -> Permutation order (map_to_list (dmap l)) ->
    forall v c, In (v, c) order -> dpd_known sh v.
  Proof.
    intros H P v c Hin. apply (Permutation_in _ P) in Hin. apply elem_of_list_In, elem_of_map_to_list in Hin.
    apply dmap_in in Hin as [Hin _]. rewrite List.Forall_forall in H. auto.
  Qed.
  Lemma dpd_score_data_eq l order : drawn_from (dpd_known sh) l -> Permutation order (map_to_list (cmap (dpd_stat l))) ->
    dpd_score_data dl sh (dpd_stat l) order = Ok (dpd_sd (dpd_stat l)).
  Proof.
    intros [Hs Hk] P. unfold dpd_score_data, dpd_sd. cbn [dpd_stat ctr_get_total ctotal cmap obind] in *.
    rewrite dpd_score_loop_eq by (eapply order_known; eauto). cbn [obind]. f_equal.
    rewrite as_size_short by exact Hs. cbn [nadd nsub nmul nlgamma nof NR NumR].
    rewrite <- (msum_order _ _ _ P). lra.
  Qed.
  Lemma dpd_sd_empty : dpd_sd (dpd_stat []) = 0.
  Proof. unfold dpd_sd. cbn [dpd_stat cmap dmap ctotal length Z.of_nat]. rewrite msum_empty, Rplus_0_r. lra. Qed.

  Lemma dpd_score_value_eq l v : dpd_known sh v ->
    dpd_score_value dl sh (dpd_stat l) v =
    Ok (ln ((alpha * beta_of sh v + IZR (zcount l v)) / (alpha + IZR (Z.of_nat (length l))))).
  Proof.
    intro Hk. unfold dpd_score_value. rewrite (proj2 (Z.eqb_neq _ _) (proj1 Hk)).
    rewrite known_beta by exact Hk. cbn [obind dpd_stat ctr_get_total ctotal]. fold (dpd_stat l). rewrite dmap_get. reflexivity.
  Qed.
  Lemma dpd_score_other_eq l :
    dpd_score_value dl sh (dpd_stat l) OTHER = Ok (ln (alpha * dp_beta0 sh / (alpha + IZR (Z.of_nat (length l))))).
  Proof. unfold dpd_score_value. rewrite Z.eqb_refl. reflexivity. Qed.

  Lemma dpd_step (Hlg : lgamma_like lg) k v : 0 < alpha -> positive_betas sh -> drawn_from (dpd_known sh) (v :: k) ->
    dpd_score_value dl sh (dpd_stat k) v = Ok (dpd_sd (dpd_stat (v :: k)) - dpd_sd (dpd_stat k)).
  Proof.
    intros Ha Hb [_ Hv]. inversion Hv; subst. rewrite dpd_score_value_eq by assumption. f_equal.
    unfold dpd_sd. cbn [dpd_stat cmap ctotal]. rewrite msum_dmap_cons. cbn [length].
    pose proof (known_pos sh v Hb H1) as Hbv. assert (Hp : 0 < alpha * beta_of sh v) by now apply Rmult_lt_0_compat.
    assert (Hn : 0 <= IZR (Z.of_nat (length k))) by (apply (IZR_le 0); lia).
    assert (Hc : 0 <= IZR (zcount k v)) by (apply (IZR_le 0), zcount_nonneg).
    rewrite Nat2Z.inj_succ, succ_IZR, plus_IZR.
    replace (alpha + (IZR (Z.of_nat (length k)) + 1)) with (alpha + IZR (Z.of_nat (length k)) + 1) by lra.
    replace (alpha * beta_of sh v + (IZR (zcount k v) + 1)) with (alpha * beta_of sh v + IZR (zcount k v) + 1) by lra.
    rewrite !(lg_succ lg Hlg) by lra.
    unfold Rdiv. rewrite ln_mult; [|lra|apply Rinv_0_lt_compat; lra]. rewrite ln_Rinv by lra.
    destruct (Z.eqb_spec (zcount k v) 0) as [E|E]; [rewrite E, Rplus_0_r|]; lra.
  Qed.
  Lemma dpd_chain (Hlg : lgamma_like lg) l : 0 < alpha -> positive_betas sh -> drawn_from (dpd_known sh) l ->
    c_chain D dl sh 0 Rplus (dpd_score_value dl) (c_init D sh) l = Ok (dpd_sd (dpd_stat l)).
  Proof.
    intros Ha Hb Hl.
    pose proof (chain_stat D dl sh dpd_stat (drawn_from (dpd_known sh)) dpd_stat_perm
      (drawn_perm _) (drawn_tail _) (dpd_add_stat dl sh) (dpd_score_value dl) dpd_sd) as H.
    specialize (H (fun k v => dpd_step Hlg k v Ha Hb) l []). cbn [value_t group_t DPD] in *. rewrite app_nil_r in H.
    specialize (H Hl). rewrite dpd_sd_empty in H. rewrite Rminus_0_r in H. exact H.
  Qed.

  (** Normalisation. *)
  Definition dpd_mass : R := dp_beta0 sh + msum (fun _ b => b) (dp_betas sh).
  Lemma dpd_probs_sum l : 0 < alpha -> positive_betas sh -> drawn_from (dpd_known sh) l ->
    msum (fun v _ => exp (ln ((alpha * beta_of sh v + IZR (zcount l v)) / (alpha + IZR (Z.of_nat (length l)))))) (dp_betas sh) =
    (alpha * msum (fun _ b => b) (dp_betas sh) + IZR (Z.of_nat (length l))) / (alpha + IZR (Z.of_nat (length l))).
  Proof.
    intros Ha Hb [_ Hl].
    assert (Hn : 0 <= IZR (Z.of_nat (length l))) by (apply (IZR_le 0); lia).
    rewrite (msum_ext _ (fun v b => / (alpha + IZR (Z.of_nat (length l))) * (alpha * b + IZR (zcount l v)))).
    - rewrite msum_scal, msum_plus, msum_scal, msum_counts; [unfold Rdiv; lra|].
      eapply List.Forall_impl; [|exact Hl]. intros v [_ H]. exact H.
    - intros v b E. assert (E' : beta_of sh v = b) by (unfold beta_of; now rewrite E). rewrite E'.
      assert (0 < alpha * b) by (apply Rmult_lt_0_compat; [lra|eapply Hb, E]).
      assert (0 <= IZR (zcount l v)) by (apply (IZR_le 0), zcount_nonneg).
      rewrite exp_ln; [unfold Rdiv; lra|]. apply Rmult_lt_0_compat; [lra|apply Rinv_0_lt_compat; lra].
  Qed.

  (** Scorer *)
  Lemma sp_add_fresh {V} (m : gmap Z V) k v : m !! k = None -> sp_add dl m k v = Ok (<[ k := v ]> m).
  Proof. intro E. unfold sp_add, um_insert. rewrite E. rewrite dassert_at_true by reflexivity. reflexivity. Qed.
  Lemma scorer_betas_ok scale ob : List.NoDup (map fst ob) -> forall s, (forall k, In k (map fst ob) -> s !! k = None) ->
    exists s', dpd_scorer_betas dl scale ob s = Ok s' /\
      (forall k b, In (k, b) ob -> s' !! k = Some (b * scale)) /\ (forall k, ~ In k (map fst ob) -> s' !! k = s !! k).
  Proof.
    induction ob as [|[v b] ob IH]; intros Hnd s Hs; cbn [dpd_scorer_betas map fst] in *.
    - exists s. split; [reflexivity|]. split; [intros k b []|reflexivity].
    - apply NoDup_cons_iff in Hnd as [Hv Hnd]. rewrite sp_add_fresh by (apply Hs; now left). cbn [obind].
      destruct (IH Hnd (<[ v := b * scale ]> s)%R) as (s' & E & H1 & H2).
      { intros k Hk. rewrite lookup_insert_ne by (intros ->; contradiction). apply Hs. now right. }
      exists s'. split; [exact E|]. split.
      + intros k b' [Ek|Hin]; [|now apply H1]. injection Ek as <- <-. rewrite H2 by exact Hv. apply lookup_insert.
      + intros k Hk. rewrite H2 by (intro; apply Hk; now right). apply lookup_insert_ne. intros ->. apply Hk. now left.
  Qed.
  Lemma scorer_counts_ok scale og : List.NoDup (map fst og) -> forall s, (forall k, In k (map fst og) -> s !! k <> None) ->
    exists s', dpd_scorer_counts dl scale og s = Ok s' /\
      (forall k c x, In (k, c) og -> s !! k = Some x -> s' !! k = Some (x + scale * IZR c)) /\ (forall k, ~ In k (map fst og) -> s' !! k = s !! k).
  Proof.
    induction og as [|[v c] og IH]; intros Hnd s Hs; cbn [dpd_scorer_counts map fst] in *.
    - exists s. split; [reflexivity|]. split; [intros k c x []|reflexivity].
    - apply NoDup_cons_iff in Hnd as [Hv Hnd].
      assert (exists x, s !! v = Some x) as [x Ex] by (specialize (Hs v (or_introl eq_refl)); destruct (s !! v); [eauto|congruence]).
      rewrite (sp_get_some _ _ _ _ Ex). cbn [obind].
      destruct (IH Hnd (<[ v := x + scale * IZR c ]> s)%R) as (s' & E & H1 & H2).
      { intros k Hk. rewrite lookup_insert_ne by (intros ->; contradiction). apply Hs. now right. }
      exists s'. split; [exact E|]. split.
      + intros k c' y [Ek|Hin] Ey.
        * injection Ek as <- <-. rewrite H2 by exact Hv. rewrite lookup_insert. congruence.
        * apply (H1 k c' y Hin). rewrite lookup_insert_ne; [exact Ey|]. intros ->. apply Hv. apply (List.in_map fst _ _ Hin).
      + intros k Hk. rewrite H2 by (intro; apply Hk; now right). apply lookup_insert_ne. intros ->. apply Hk. now left.
  Qed.
End S.

(** A loop that touches each entry once. *)
Lemma each_entry_ok {V} (f : Z -> V -> outcome V) (h : Z -> V -> V) l : List.NoDup (map fst l) -> forall m,
  (forall k v, In (k, v) l -> f k v = Ok (h k v)) ->
  exists m', each_entry f l m = Ok m' /\
    (forall k v, In (k, v) l -> m' !! k = Some (h k v)) /\ (forall k, ~ In k (map fst l) -> m' !! k = m !! k).
Proof.
  induction l as [|[v b] l IH]; intros Hnd m Hf; cbn [each_entry map fst] in *.
  - exists m. split; [reflexivity|]. split; [intros k b []|reflexivity].
  - apply NoDup_cons_iff in Hnd as [Hv Hnd]. rewrite (Hf v b) by now left. cbn [obind].
    destruct (IH Hnd (<[ v := h v b ]> m)) as (m' & E & H1 & H2); [intros; apply Hf; now right|].
    exists m'. split; [exact E|]. split.
    + intros k b' [Ek|Hin]; [|now apply H1]. injection Ek as <- <-. rewrite H2 by exact Hv. apply lookup_insert.
    + intros k Hk. rewrite H2 by (intro; apply Hk; now right). apply lookup_insert_ne. intros ->. apply Hk. now left.
Qed.
Lemma nodup_keys {V} (m : gmap Z V) order : Permutation order (map_to_list m) -> List.NoDup (map fst order).
Proof.
  intro P. apply (Permutation_NoDup (l:=map fst (map_to_list m))); [apply Permutation_map; now apply Permutation_sym|].
  apply NoDup_ListNoDup. apply NoDup_fst_map_to_list.
Qed.
Lemma in_order {V} (m : gmap Z V) order k v : Permutation order (map_to_list m) -> In (k, v) order <-> m !! k = Some v.
Proof.
  intro P. rewrite <- elem_of_map_to_list. rewrite elem_of_list_In.
  split; intro H; [eapply Permutation_in; [exact P|exact H]|eapply Permutation_in; [apply Permutation_sym; exact P|exact H]].
Qed.
Lemma in_keys {V} (m : gmap Z V) order k : Permutation order (map_to_list m) -> In k (map fst order) <-> m !! k <> None.
Proof.
  intro P. rewrite List.in_map_iff. split.
  - intros ([k' v] & <- & H). apply (in_order _ _ _ _ P) in H. cbn [fst]. congruence.
  - intro H. destruct (m !! k) as [v|] eqn:E; [|congruence]. exists (k, v). split; [reflexivity|]. now apply (in_order _ _ _ _ P).
Qed.
Lemma map_each_ok {V} (f : Z -> V -> outcome V) (h : Z -> V -> V) (m : gmap Z V) :
  (forall k v, m !! k = Some v -> f k v = Ok (h k v)) ->
  map_each f m = Ok (map_imap (fun k v => Some (h k v)) m).
Proof.
  intro Hf. unfold map_each.
  destruct (each_entry_ok f h (map_to_list m) (nodup_keys m _ (Permutation_refl _)) m) as (m' & E & H1 & H2).
  { intros k v Hin. apply Hf. now apply (in_order m _ _ _ (Permutation_refl _)). }
  rewrite E. f_equal. apply map_eq. intro k. rewrite map_lookup_imap. destruct (m !! k) as [v|] eqn:Ek; cbn.
  - apply H1. now apply (in_order m _ _ _ (Permutation_refl _)).
  - rewrite H2; [exact Ek|]. rewrite (in_keys m _ _ (Permutation_refl _)). congruence.
Qed.

Section S2.
  Variable lg : R -> R.
  #[local] Hint Extern 0 (Num R) => exact (NumR lg) : typeclass_instances.
  Variables (dl : nat) (sh : dpd_shared R).
  Notation alpha := (dp_alpha sh).

  (** Scorer::init succeeds and its table holds the predictive scores. *)
  Lemma dpd_scorer_ok l ob og : 0 < alpha -> dp_betas sh !! OTHER = None -> drawn_from (dpd_known sh) l ->
    Permutation ob (map_to_list (dp_betas sh)) -> Permutation og (map_to_list (cmap (dpd_stat l))) ->
    exists s, dpd_scorer_init dl sh (dpd_stat l) ob og = Ok s /\
      forall v, dpd_scorer_eval dl s v = dpd_score_value dl sh (dpd_stat l) v.
  Proof.
    intros Ha Ho [Hs Hk] Pb Pg. unfold dpd_scorer_init. cbn [dpd_stat ctr_get_total ctotal cmap obind] in *.
    rewrite as_size_short by exact Hs. set (n := Z.of_nat (length l)).
    assert (Hn : 0 <= IZR n) by (apply (IZR_le 0); lia).
    set (sc := (dp_alpha sh / (dp_alpha sh + nof n))%num). rewrite sp_add_fresh by apply lookup_empty. cbn [obind].
    destruct (scorer_betas_ok lg dl sc ob (nodup_keys _ _ Pb) (<[ OTHER := (sc * dp_beta0 sh)%num ]> ∅)) as (s1 & E1 & A1 & B1).
    { intros k Hin. apply (in_keys _ _ _ Pb) in Hin. rewrite lookup_insert_ne by congruence. apply lookup_empty. }
    rewrite E1. cbn [obind]. set (cs := (nlit 1 1 / (dp_alpha sh + nof n))%num).
    assert (Hkeys : forall k, In k (map fst og) -> dpd_known sh k).
    { intros k Hin. apply (in_keys _ _ _ Pg) in Hin. rewrite List.Forall_forall in Hk. apply Hk.
      destruct (dmap l !! k) as [c|] eqn:E; [|congruence]. apply dmap_in in E. tauto. }
    destruct (scorer_counts_ok lg dl cs og (nodup_keys _ _ Pg) s1) as (s2 & E2 & A2 & B2).
    { intros k Hin. apply Hkeys in Hin. destruct Hin as [_ Hin]. destruct (dp_betas sh !! k) as [b|] eqn:E; [|congruence].
      rewrite (A1 k b) by now apply (in_order _ _ _ _ Pb). discriminate. }
    rewrite E2. cbn [obind]. rewrite (map_each_ok _ (fun _ x => nlog x)) by reflexivity.
    eexists. split; [reflexivity|]. intro v. unfold dpd_scorer_eval.
    destruct (BinInt.Z.eq_dec v OTHER) as [->|Hv].
    - rewrite (sp_get_some _ _ OTHER (nlog (sc * dp_beta0 sh)%num)).
      + fold (dpd_stat l). rewrite (dpd_score_other_eq lg). f_equal. subst sc. cbn [nlog nmul ndiv nadd nof NumR]. f_equal. fold n. field. lra.
      + rewrite map_lookup_imap, B2.
        2:{ intro Hin. apply Hkeys in Hin. destruct Hin; congruence. }
        rewrite B1. 2:{ rewrite (in_keys _ _ _ Pb). congruence. }
        now rewrite lookup_insert.
    - destruct (dp_betas sh !! v) as [b|] eqn:Eb.
      + assert (Hkv : dpd_known sh v) by (split; congruence).
        assert (E : s1 !! v = Some (b * sc)) by (apply A1; now apply (in_order _ _ _ _ Pb)).
        fold (dpd_stat l). rewrite (dpd_score_value_eq lg) by exact Hkv. fold n.
        assert (Ev : beta_of sh v = b) by (unfold beta_of; now rewrite Eb). rewrite Ev.
        apply sp_get_some. rewrite map_lookup_imap.
        destruct (dmap l !! v) as [c|] eqn:Ec.
        * rewrite (A2 v c (b * sc)); [|now apply (in_order _ _ _ _ Pg)|exact E].
          apply dmap_in in Ec as [_ ->]. cbn. f_equal. f_equal. subst sc cs. cbn [ndiv nadd nof nlit NumR]. field. lra.
        * rewrite B2. 2:{ rewrite (in_keys _ _ _ Pg). congruence. } rewrite E. cbn. f_equal. f_equal.
          rewrite dmap_lookup in Ec. destruct (Z.eqb_spec (zcount l v) 0) as [->|]; [|discriminate].
          subst sc. cbn [ndiv nadd nof nlit NumR]. field. lra.
      + unfold dpd_score_value. rewrite (proj2 (Z.eqb_neq _ _) Hv).
        assert (E : s2 !! v = None).
        { rewrite B2. 2:{ intro Hin. apply Hkeys in Hin. destruct Hin; congruence. }
          rewrite B1. 2:{ rewrite (in_keys _ _ _ Pb). congruence. }
          rewrite lookup_insert_ne by auto. apply lookup_empty. }
        assert (E' : map_imap (fun _ x => Some (nlog x)) s2 !! v = None) by (rewrite map_lookup_imap, E; reflexivity).
        destruct (sp_get_none dl _ _ v E' Eb) as [[-> ->]|[-> ->]]; reflexivity.
  Qed.

  (** MixtureDataScorer::score_data *)
  Lemma dpd_mix_group_eq order : (forall v c, In (v, c) order -> dpd_known sh v) -> forall s,
    dpd_mix_group dl sh ((fun b => nlgamma (dp_alpha sh * b)%num) <$> dp_betas sh) order s =
    Ok (s + rsum (map (fun vc => lg (alpha * beta_of sh vc.1 + IZR vc.2) - lg (alpha * beta_of sh vc.1)) order)).
  Proof.
    induction order as [|[v c] order IH]; intros H s; cbn [dpd_mix_group map rsum].
    - f_equal. lra.
    - assert (Hv : dpd_known sh v) by (eapply H; now left). rewrite known_beta by exact Hv. cbn [obind].
      rewrite (sp_get_some _ _ v (nlgamma (dp_alpha sh * beta_of sh v)%num)).
      2:{ rewrite lookup_fmap. destruct Hv as [_ Hv]. unfold beta_of. destruct (dp_betas sh !! v); [reflexivity|congruence]. }
      cbn [obind]. rewrite IH by (intros; eapply H; right; eauto).
      f_equal. cbn [nadd nsub nmul nlgamma nof NumR fst snd]. rewrite (Rmult_comm (beta_of sh v)). lra.
  Qed.
  Lemma dpd_mixture_eq ord data : List.Forall (drawn_from (dpd_known sh)) data ->
    (forall c, Permutation (ord c) (map_to_list (cmap c))) ->
    dpd_mixture_score_data dl ord sh (map dpd_stat data) = Ok (rsum (map (fun l => dpd_sd lg sh (dpd_stat l)) data)).
  Proof.
    intros H Ho. unfold dpd_mixture_score_data.
    rewrite <- (Rplus_0_l (rsum _)). change (nof 0) with 0. generalize 0 as s.
    induction H as [|l data [Hs Hl] H IH]; intro s; cbn [map dpd_mix_loop rsum]; [f_equal; lra|].
    cbn [ctr_get_total dpd_stat ctotal obind]. fold (dpd_stat l). destruct (Z.eqb_spec (Z.of_nat (length l)) 0) as [E|E].
    - destruct l; [|cbn [length] in E; lia]. rewrite IH. f_equal. rewrite (dpd_sd_empty lg sh). lra.
    - rewrite dpd_mix_group_eq by (eapply order_known; [exact Hl|apply (Ho (dpd_stat l))]). cbn [obind]. rewrite IH.
      f_equal. unfold dpd_sd at 2. cbn [dpd_stat cmap ctotal]. fold (dpd_stat l).
      rewrite <- (msum_order _ _ _ (Ho (dpd_stat l))). cbn [nadd nsub nmul nlgamma nof NumR]. lra.
  Qed.
End S2.
