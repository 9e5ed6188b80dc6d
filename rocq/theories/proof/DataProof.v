(** Mixture data scorers. *)
From Coq Require Import Permutation Reals Lra.
From Verif.model Require Import Base Num NumR VectorMath Component Slave BB BNB GP NICH DD.
From Verif.spec Require Import GroupSpec GaussSpec LgammaSpec VectorSpec.
From Verif.proof Require Import BaseProof GroupProof BBProof CountsProof VectorProof LoopProof DDProof LgammaProof NICHProof ScoreProof DDScore.

(** The default score_data_grid, for every arithmetic. *)
Lemma grid_scorer_ok {C : component} {F} (f : shared_t C -> list (group_t C) -> F) shareds gs out :
  length shareds = length out ->
  grid_scorer (fun sh gs => Ok (f sh gs)) shareds gs out = Ok (map (fun sh => f sh gs) shareds).
Proof.
  intro L. unfold grid_scorer. rewrite (proj2 (Nat.eqb_eq _ _) L). cbn [dassert obind].
  match goal with |- vfor 0 _ ?b _ = _ => destruct (vfor_upd b
    (fun i x => match nth_error shareds i with Some sh => f sh gs | None => x end) (length out) 0 out)
    as (r & E & Lr & I & _) end; [lia| |].
  - intros i l' x Hi Hl Hx Hx'. destruct (vget_some shareds i) as (sh & Hs & Hg); [lia|].
    rewrite Hg, Hs. cbn [obind]. apply vset_ok. lia.
  - rewrite E. f_equal. apply nth_error_ext. intro i. rewrite nth_error_map.
    destruct (nth_error shareds i) as [sh|] eqn:Hs; cbn [option_map].
    + assert (Hi : i < length out) by (rewrite <- L; apply nth_error_Some; congruence).
      destruct (vget_some out i Hi) as (x & Hx & _). rewrite (I i x) by (auto; lia). now rewrite Hs.
    + apply nth_error_None. apply nth_error_None in Hs. lia.
Qed.
Lemma grid_scorer_fail {C : component} {F} (f : shared_t C -> list (group_t C) -> outcome F) shareds gs out :
  length shareds <> length out -> grid_scorer f shareds gs out = Fail.
Proof. intro L. unfold grid_scorer. now rewrite (proj2 (Nat.eqb_neq _ _) L). Qed.

Local Open Scope R_scope.

Lemma fold_left_sum {A} (f : A -> R) (body : R -> A -> R) l : (forall s x, In x l -> body s x = s + f x) ->
  forall s, fold_left body l s = s + rsum (map f l).
Proof.
  induction l as [|x l IH]; intros H s; cbn [fold_left map rsum]; [lra|].
  rewrite IH by (intros; apply H; now right). rewrite H by now left. lra.
Qed.

Section R.
  Variable lg : R -> R.
  Let NR : Num R := NumR lg.
  Existing Instance NR.
  Ltac un := cbn [nof nlit nadd nsub nmul ndiv nneg nlog nlgamma nlogfact NR NumR].

  Lemma small_sum {C : component} (gscore : shared_t C -> group_t C -> outcome R) sh gs ss :
    List.Forall2 (fun g s => gscore sh g = Ok s) gs ss -> small_score_data (C:=C) gscore sh gs = Ok (rsum ss).
  Proof.
    intros H. unfold small_score_data.
    assert (G : forall s, small_score_data_loop (C:=C) gscore sh gs s = Ok (s + rsum ss)).
    { induction H as [|g s1 gs ss E H IH]; intro s; cbn [small_score_data_loop obind rsum].
      - f_equal. lra. - rewrite E. cbn [obind]. rewrite IH. f_equal. un. lra. }
    rewrite G. f_equal. un. lra.
  Qed.
  Lemma small_fails {C : component} (gscore : shared_t C -> group_t C -> outcome R) sh gs g gs' ss :
    List.Forall2 (fun g s => gscore sh g = Ok s) gs ss -> (forall s, gscore sh g <> Ok s) ->
    match gscore sh g with Ok _ => False | Fail => small_score_data (C:=C) gscore sh (gs ++ g :: gs') = Fail
    | UB => small_score_data (C:=C) gscore sh (gs ++ g :: gs') = UB end.
  Proof.
    intros H N. unfold small_score_data. generalize (nof 0). intros s0.
    assert (G : forall s, small_score_data_loop (C:=C) gscore sh (gs ++ g :: gs') s =
                          let* x := gscore sh g in small_score_data_loop (C:=C) gscore sh gs' (nadd (s + rsum ss) x)).
    { induction H as [|g1 s1 gs ss E H IH]; intro s; cbn [app small_score_data_loop rsum].
      - destruct (gscore sh g) as [x | |] eqn:E; cbn [obind]; [now destruct (N x) | reflexivity | reflexivity].
      - rewrite E. cbn [obind]. rewrite IH. destruct (gscore sh g) as [x | |] eqn:E2; cbn [obind]; [now destruct (N x) | reflexivity | reflexivity]. }
    rewrite G. destruct (gscore sh g) as [x | |] eqn:E; cbn [obind]; [now apply (N x) | reflexivity | reflexivity].
  Qed.

  Lemma bb_data (sh : bb_shared R) gs : bb_mixture_score_data sh gs = rsum (map (bb_score_data sh) gs).
  Proof.
    unfold bb_mixture_score_data.
    rewrite (fold_left_sum (bb_score_data sh)); [un; lra|].
    intros s g _. unfold bb_score_data. un. lra.
  Qed.
  Lemma bnb_data (sh : bnb_shared R) gs : (forall g, In g gs -> bnb_count g = 0%Z -> bnb_sum g = 0%Z) ->
    bnb_mixture_score_data sh gs = rsum (map (bnb_score_data sh) gs).
  Proof.
    intro W. unfold bnb_mixture_score_data.
    rewrite (fold_left_sum (bnb_score_data sh)); [un; lra|].
    intros s g Hg. unfold bnb_score_data. destruct (Z.eqb_spec (bnb_count g) 0) as [E|E]; [|un; lra].
    unfold bnb_plus_group. cbn [bnb_alpha bnb_beta]. rewrite (W g Hg E), E. un.
    rewrite Rmult_0_r, !Rplus_0_r. lra.
  Qed.
  Lemma gp_data (sh : gp_shared R) gs :
    (forall g, In g gs -> gp_count g = 0%Z -> gp_sum g = 0%Z /\ gp_log_prod g = 0) ->
    gp_mixture_score_data sh gs = rsum (map (gp_score_data sh) gs).
  Proof.
    intro W. unfold gp_mixture_score_data.
    rewrite (fold_left_sum (gp_score_data sh)); [un; lra|].
    intros s g Hg. unfold gp_score_data. destruct (Z.eqb_spec (gp_count g) 0) as [E|E]; [|un; lra].
    unfold gp_plus_group. cbn [gp_alpha gp_inv_beta]. destruct (W g Hg E) as [-> ->]. rewrite E. un.
    rewrite !Rplus_0_r. lra.
  Qed.
  Lemma nich_data (sh : nich_shared R) gs : 0 < ni_kappa sh -> 0 < ni_nu sh ->
    (forall g, In g gs -> (0 <= ni_count g)%Z /\ (ni_count g = 0%Z -> ni_mean g = 0 /\ ni_ctv g = 0)) ->
    nich_mixture_score_data sh gs = rsum (map (nich_score_data sh) gs).
  Proof.
    intros Hk Hn W. unfold nich_mixture_score_data.
    rewrite (fold_left_sum (nich_score_data sh)); [un; lra|].
    intros s g Hg. destruct (W g Hg) as [Hc H0]. unfold nich_score_data, half, log_pi_lit.
    destruct (Z.eqb_spec (ni_count g) 0) as [E|E].
    - unfold nich_plus_group. cbn [ni_kappa ni_nu ni_sigmasq]. destruct (H0 E) as [-> ->]. rewrite E. un.
      rewrite !Rplus_0_r.
      replace (ni_nu sh * (1 / 1 / ni_nu sh * (ni_nu sh * ni_sigmasq sh + 0 * ni_kappa sh * (ni_mu sh - 0) * (ni_mu sh - 0) / ni_kappa sh)))
        with (ni_nu sh * ni_sigmasq sh) by (field; lra).
      replace (ni_kappa sh / ni_kappa sh) with 1 by (field; lra). rewrite ln_1. lra.
    - apply IZR_le in Hc. un. rewrite ln_div; [lra|lra|]. unfold nich_plus_group. cbn [ni_kappa]. un. lra.
  Qed.

  (** Dirichlet-discrete *)
  Definition dd_wf (dim : nat) (g : dd_group) : Prop :=
    length (dd_counts g) = dim /\ dd_count_sum g = zsum (dd_counts g) /\ List.Forall (fun c => (0 <= c)%Z) (dd_counts g).

  Lemma dd_wf_zero dim g : dd_wf dim g -> dd_count_sum g = 0%Z -> forall i, cn g i = 0.
  Proof.
    intros (L & S & F) E i. rewrite E in S. unfold cn. clear E L.
    enough (nth i (dd_counts g) 0%Z = 0%Z) as -> by reflexivity.
    revert i S. induction F as [|c l Hc F IH]; intros [|i] S; cbn [nth zsum] in *; auto.
    - apply zsum_nonneg in F. lia. - apply IH. apply zsum_nonneg in F. lia.
  Qed.

  Definition S_i (gs : list dd_group) (a : R) (i : nat) : R := rsum (map (fun g => lg (a + cn g i) - lg a) gs).
  Definition S_last (gs : list dd_group) (t : R) : R := rsum (map (fun g => lg t - lg (t + IZR (dd_count_sum g))) gs).

  Definition sc_ok (al : list R) (gs : list dd_group) (sc : list R) : Prop :=
    length sc = S (length al) /\
    (forall i, (i < length al)%nat -> nth_error sc i = Some (S_i gs (rn al i) i)) /\
    nth_error sc (length al) = Some (S_last gs (asum al)).
  Definition part_ok (al : list R) (p : list R) : Prop :=
    length p = S (length al) /\
    (forall i, (i < length al)%nat -> nth_error p i = Some (lg (rn al i))) /\
    nth_error p (length al) = Some (lg (asum al)).
  Definition ds_ok (al : list R) (gs : list dd_group) (s : dd_ds R) : Prop :=
    dds_alpha_sum s = asum al /\ length (dds_shared_part s) = S (length al) /\ sc_ok al gs (dds_scores s).

  Lemma rsum_firstn_S {A} (f : A -> R) l k x : nth_error l k = Some x ->
    rsum (map f (firstn (S k) l)) = rsum (map f (firstn k l)) + f x.
  Proof.
    revert k; induction l as [|y l IH]; intros [|k] H; try discriminate.
    - injection H as ->. cbn. lra.
    - rewrite !(firstn_cons _ y l). cbn [map rsum]. rewrite (IH k H). lra.
  Qed.

  Lemma vupdate_at (f : nat -> R -> outcome R) i (l : list R) x y :
    nth_error l i = Some x -> f i x = Ok y -> vupdate f i l = Ok (upd l i y).
  Proof.
    intros Hx Hf. unfold vupdate. rewrite (vget_nth _ _ _ Hx). cbn [obind]. rewrite Hf. cbn [obind].
    apply vset_ok. apply nth_error_Some. congruence.
  Qed.

  Lemma dd_ds_init_ok old (sh : dd_shared R) gs : List.Forall (dd_wf (dd_dim sh)) gs ->
    exists s, dd_ds_init old sh gs = Ok s /\ ds_ok (dd_alphas sh) gs s.
  Proof.
    intro W. unfold dd_ds_init. set (al := dd_alphas sh). change (dd_dim sh) with (length al) in *.
    destruct (vfor_inv (fun i (p : R * list R) => fst p = sumf (rn al) i /\ length (snd p) = S (length al) /\
        forall j, (j < i)%nat -> nth_error (snd p) j = Some (lg (rn al j)))
      (fun i (p : R * list R) => let* alpha := vget al i in
        let* part := vset (snd p) i (nlgamma alpha) in Ok ((fst p + alpha)%num, part)) (length al) 0
      (nof 0, vec_resize (nof 0) (dds_shared_part old) (length al + 1))) as (p & -> & P1 & P2 & P3).
    { cbn [fst snd]. split; [reflexivity|]. split; [rewrite vec_resize_length; lia|]. intros; lia. }
    { intros i p Hi (P1 & P2 & P3). rewrite vget_rn by lia. cbn [obind].
      rewrite vset_ok by lia. cbn [obind]. eexists. split; [reflexivity|]. cbn [fst snd]. un.
      rewrite P1. split; [reflexivity|]. split; [now rewrite length_upd|].
      intros j Hj. destruct (Nat.eq_dec j i) as [->|Ne].
      - apply nth_error_upd_eq. lia.
      - rewrite nth_error_upd_ne by auto. apply P3. lia. }
    cbn [obind]. cbn [Nat.add] in P1. change (fst p = asum al) in P1. rewrite P1.
    rewrite vset_ok by lia. cbn [obind]. rewrite P2. replace (S (length al) - 1)%nat with (length al) by lia.
    set (part := upd (snd p) (length al) (nlgamma (asum al))).
    assert (PO : part_ok al part).
    { unfold part. split; [now rewrite length_upd|]. split.
      - intros i Hi. rewrite nth_error_upd_ne by lia. apply P3. cbn. lia.
      - apply nth_error_upd_eq. lia. }
    destruct PO as (Q1 & Q2 & Q3).
    match goal with |- exists s, (let* scores := vfor 0 _ ?b _ in _) = _ /\ _ => set (body := b) end.
    destruct (vfor_inv (fun k sc => sc_ok al (firstn k gs) sc) body (length gs) 0 (repeat (nof 0) (length al + 1)))
      as (sc & -> & HS).
    { split; [rewrite repeat_length; lia|]. split.
      - intros i Hi. rewrite nth_error_repeat by lia. reflexivity.
      - rewrite nth_error_repeat by lia. reflexivity. }
    { intros k sc Hk (L & A & B). unfold body. destruct (vget_some gs k) as (g & Hg & ->); [lia|]. cbn [obind].
      assert (Wg : dd_wf (length al) g) by (rewrite Forall_forall in W; apply W; eapply nth_error_In, Hg).
      destruct (Z.eqb_spec (dd_count_sum g) 0) as [E|E].
      - exists sc. split; [reflexivity|]. split; [exact L|]. split.
        + intros i Hi. rewrite A by exact Hi. f_equal. unfold S_i. rewrite (rsum_firstn_S _ _ _ _ Hg).
          rewrite (dd_wf_zero _ _ Wg E). rewrite Rplus_0_r. lra.
        + rewrite B. f_equal. unfold S_last. rewrite (rsum_firstn_S _ _ _ _ Hg). rewrite E. rewrite Rplus_0_r. lra.
      - match goal with |- exists s, (let* scores := vfor 0 _ (vupdate ?f) _ in _) = _ /\ _ =>
          destruct (vupdate_all f (fun i x => x + (lg (rn al i + cn g i) - lg (rn al i))) (length al) sc) as (r & -> & Lr & Ir & Or) end.
        + lia.
        + intros i x Hi. rewrite vget_rn by exact Hi. cbn [obind].
          destruct Wg as (Lg & _). destruct (vget_cn g i) as (c & -> & Hc); [lia|]. cbn [obind].
          rewrite (vget_nth _ _ _ (Q2 i Hi)). cbn [obind]. un. now rewrite Hc.
        + cbn [obind]. rewrite Lr, L. replace (S (length al) - 1)%nat with (length al) by lia.
          erewrite vupdate_at.
          3:{ rewrite Q1. replace (S (length al) - 1)%nat with (length al) by lia.
              rewrite (vget_nth _ _ _ Q3). cbn [obind]. reflexivity. }
          2:{ rewrite Or by lia. exact B. }
          eexists. split; [reflexivity|]. split; [rewrite length_upd; lia|]. split.
          * intros i Hi. rewrite nth_error_upd_ne by lia.
            destruct (vget_some r i) as (y & Hy & _); [lia|]. rewrite Hy. f_equal.
            destruct (Ir i y Hi Hy) as (x & Hx & ->). rewrite A in Hx by exact Hi. injection Hx as <-.
            unfold S_i. rewrite (rsum_firstn_S _ _ _ _ Hg). lra.
          * rewrite nth_error_upd_eq by lia. f_equal. unfold S_last. rewrite (rsum_firstn_S _ _ _ _ Hg). un. lra. }
    cbn [obind]. eexists. split; [reflexivity|]. split; [reflexivity|]. split; [exact Q1|].
    cbn [dds_scores]. cbn [Nat.add] in HS. rewrite firstn_all in HS. exact HS.
  Qed.

  Lemma vector_sum_rsum (l : list R) : vector_sum (length l) l = Ok (sumf (rn l) (length l)).
  Proof.
    unfold vector_sum.
    destruct (vfor_inv (fun i s => s = sumf (rn l) i) (fun i (res : R) => let* x := vget l i in Ok (res + x)%num)
      (length l) 0 (nof 0)) as (s & E & ->); [reflexivity| |exact E].
    intros i s Hi ->. rewrite vget_rn by lia. cbn [obind]. eexists. split; reflexivity.
  Qed.

  Lemma sumf_rsum_swap {A} (f : nat -> A -> R) gs n :
    sumf (fun i => rsum (map (f i) gs)) n = rsum (map (fun g => sumf (fun i => f i g) n) gs).
  Proof.
    induction gs as [|g gs IH]; cbn [map rsum]; [apply sumf_zero|].
    rewrite sumf_plus, IH. reflexivity.
  Qed.
  Lemma rsum_plus {A} (f g : A -> R) l : rsum (map f l) + rsum (map g l) = rsum (map (fun x => f x + g x) l).
  Proof. induction l; cbn [map rsum]; lra. Qed.

  Lemma dd_ds_eval_ok al gs s : ds_ok al gs s -> dd_ds_eval s = Ok (rsum (map (dd_sd lg al) gs)).
  Proof.
    intros (_ & _ & L & A & B). unfold dd_ds_eval. rewrite vector_sum_rsum. f_equal. rewrite L. cbn [sumf].
    unfold rn at 2. rewrite (nth_error_nth _ _ _ B).
    rewrite (sumf_ext _ (fun i => rsum (map (fun g => lg (rn al i + cn g i) - lg (rn al i)) gs))).
    - rewrite (sumf_rsum_swap (fun i g => lg (rn al i + cn g i) - lg (rn al i))). unfold S_last. rewrite rsum_plus. reflexivity.
    - intros i Hi. unfold rn at 1. rewrite (nth_error_nth _ _ _ (A i Hi)). reflexivity.
  Qed.

  Lemma rn_upd (l : list R) v x i : (v < length l)%nat -> rn (upd l v x) i = if Nat.eqb i v then x else rn l i.
  Proof.
    intro H. unfold rn. destruct (Nat.eqb_spec i v) as [->|Ne].
    - apply nth_error_nth. now apply nth_error_upd_eq.
    - destruct (nth_error l i) eqn:E.
      + rewrite (nth_error_nth _ _ _ E). apply nth_error_nth. now rewrite nth_error_upd_ne by auto.
      + apply nth_error_None in E. rewrite !nth_overflow; auto. now rewrite length_upd.
  Qed.
  Lemma asum_upd l v x : (v < length l)%nat -> asum (upd l v x) = asum l + (x - rn l v).
  Proof.
    intro H. unfold asum. rewrite length_upd. rewrite (sumf_update _ (rn l) _ v H).
    - rewrite rn_upd by exact H. now rewrite Nat.eqb_refl.
    - intros i Hi Ne. rewrite rn_upd by exact H. now rewrite (proj2 (Nat.eqb_neq i v) Ne).
  Qed.

  Lemma dd_ds_update_ok al gs s v x : ds_ok al gs s -> (v < length al)%nat ->
    List.Forall (fun g => length (dd_counts g) = length al) gs ->
    exists s', dd_ds_update s v (rn al v) x gs = Ok s' /\ ds_ok (upd al v x) gs s'.
  Proof.
    intros (HA & HP & L & A & B) Hv W. unfold dd_ds_update.
    rewrite vset_ok by lia. cbn [obind]. rewrite vset_ok by (rewrite length_upd; lia). cbn [obind].
    rewrite vset_ok by lia. cbn [obind]. rewrite vset_ok by (rewrite length_upd; lia). cbn [obind].
    rewrite !length_upd, HP, L. replace (S (length al) - 1)%nat with (length al) by lia.
    un. rewrite HA. rewrite <- (asum_upd al v x Hv). set (t := asum (upd al v x)).
    set (part := upd (upd (dds_shared_part s) v (lg x)) (length al) (lg t)).
    assert (Pv : nth_error part v = Some (lg x)).
    { unfold part. rewrite nth_error_upd_ne by lia. apply nth_error_upd_eq. lia. }
    assert (Pl : length part = S (length al)) by (unfold part; rewrite !length_upd; lia).
    assert (Pt : nth_error part (length al) = Some (lg t)).
    { unfold part. apply nth_error_upd_eq. rewrite length_upd. lia. }
    match goal with |- exists s, (let* scores := vfor 0 _ ?b ?i in _) = _ /\ _ => set (body := b); set (sc0 := i) end.
    destruct (vfor_inv (fun k sc => length sc = S (length al) /\
        nth_error sc v = Some (S_i (firstn k gs) x v) /\ nth_error sc (length al) = Some (S_last (firstn k gs) t) /\
        forall i, i <> v -> i <> length al -> nth_error sc i = nth_error (dds_scores s) i) body (length gs) 0 sc0)
      as (sc & -> & Ls & Sv & St & So).
    { unfold sc0. split; [rewrite !length_upd; lia|]. split.
      - rewrite nth_error_upd_ne by lia. rewrite nth_error_upd_eq by lia. reflexivity.
      - split; [rewrite nth_error_upd_eq by (rewrite length_upd; lia); reflexivity|].
        intros i H1 H2. rewrite !nth_error_upd_ne by auto. reflexivity. }
    { intros k sc Hk (Ls & Sv & St & So). unfold body. destruct (vget_some gs k) as (g & Hg & ->); [lia|]. cbn [obind].
      assert (Wg : length (dd_counts g) = length al) by (rewrite Forall_forall in W; apply W; eapply nth_error_In, Hg).
      destruct (vget_cn g v) as (c & Hc & Ec); [lia|].
      erewrite vupdate_at; [|exact Sv|rewrite Hc; cbn [obind]; rewrite (vget_nth _ _ _ Pv); cbn [obind]; reflexivity].
      cbn [obind]. rewrite length_upd, Ls. replace (S (length al) - 1)%nat with (length al) by lia.
      erewrite vupdate_at;
        [|rewrite nth_error_upd_ne by lia; exact St
         |rewrite (vget_nth _ _ _ Pt); cbn [obind]; reflexivity].
      eexists. split; [reflexivity|]. split; [rewrite !length_upd; lia|]. split; [|split].
      - rewrite nth_error_upd_ne by lia. rewrite nth_error_upd_eq by lia. f_equal. unfold S_i.
        rewrite (rsum_firstn_S _ _ _ _ Hg). un. rewrite Ec. reflexivity.
      - rewrite nth_error_upd_eq by (rewrite length_upd; lia). f_equal. unfold S_last.
        rewrite (rsum_firstn_S _ _ _ _ Hg). reflexivity.
      - intros i H1 H2. rewrite !nth_error_upd_ne by auto. now apply So. }
    cbn [obind]. cbn [Nat.add] in *. rewrite firstn_all in *.
    eexists. split; [reflexivity|]. split; [reflexivity|]. cbn [dds_shared_part dds_scores].
    rewrite length_upd. split; [exact Pl|]. split; [now rewrite length_upd|]. rewrite length_upd. split; [|exact St].
    intros i Hi. rewrite rn_upd by exact Hv. destruct (Nat.eqb_spec i v) as [->|Ne]; [exact Sv|].
    rewrite So by lia. now apply A.
  Qed.

  Lemma fneqb_false (a b : R) : fneqb a b = false -> a = b.
  Proof.
    unfold fneqb. un. cbn [nleb NR NumR]. unfold rleb. destruct (Rle_dec a b), (Rle_dec b a); cbn; try discriminate. intros _. lra.
  Qed.

  (** Coordinates below v already moved to the new point. *)
  Definition mixed (v : nat) (old new : list R) : list R := firstn v new ++ skipn v old.
  Lemma mixed_length v (old new : list R) : length old = length new -> length (mixed v old new) = length old.
  Proof. intro H. unfold mixed. rewrite app_length, firstn_length, skipn_length. lia. Qed.
  Lemma mixed_at v (old new : list R) : length old = length new -> (v < length old)%nat -> rn (mixed v old new) v = rn old v.
  Proof.
    intros H Hv. unfold rn, mixed. rewrite app_nth2; rewrite firstn_length; [|lia].
    replace (v - Nat.min v (length new))%nat with 0%nat by lia.
    rewrite (skipn_nth _ _ _ (nth_rn old v Hv)). reflexivity.
  Qed.
  Lemma mixed_S v (old new : list R) : length old = length new -> (v < length old)%nat ->
    mixed (S v) old new = upd (mixed v old new) v (rn new v).
  Proof.
    intros H Hv. unfold mixed. rewrite (skipn_nth _ _ _ (nth_rn old v Hv)).
    assert (E : length (firstn v new) = v) by (rewrite firstn_length; lia).
    assert (U : upd (firstn v new ++ rn old v :: skipn (S v) old) v (rn new v) = firstn v new ++ rn new v :: skipn (S v) old).
    { pose proof (upd_app (firstn v new) (rn old v) (rn new v) (skipn (S v) old)) as U. rewrite E in U. exact U. }
    rewrite U.
    assert (G : firstn (S v) new = firstn v new ++ [rn new v]).
    { clear - Hv H. assert (Hn : nth_error new v = Some (rn new v)) by (apply nth_rn; lia). clear H Hv. revert v Hn. generalize (rn new).
      induction new as [|y l IH]; intros r [|v] Hn; try discriminate.
      - cbn in *. congruence.
      - cbn [firstn app]. f_equal. cbn [nth_error] in Hn. apply (IH (fun i => r (S i))). exact Hn. }
    rewrite G, <- app_assoc. reflexivity.
  Qed.

  Lemma dd_grid_ok old (sh0 : dd_shared R) shareds gs (out : list R) :
    length (sh0 :: shareds) = length out -> List.Forall (dd_wf (dd_dim sh0)) gs ->
    List.Forall (fun sh => dd_dim sh = dd_dim sh0) shareds ->
    dd_ds_score_data_grid old (sh0 :: shareds) gs out =
    Ok (map (fun sh => rsum (map (dd_sd lg (dd_alphas sh)) gs)) (sh0 :: shareds)).
  Proof.
    intros L W D. unfold dd_ds_score_data_grid. rewrite (proj2 (Nat.eqb_eq _ _) L). cbn [dassert obind].
    destruct (dd_ds_init_ok old sh0 gs W) as (s0 & -> & H0). cbn [obind].
    rewrite (dd_ds_eval_ok _ _ _ H0). cbn [obind]. cbn [length] in L. rewrite vset_ok by lia. cbn [obind].
    set (all := sh0 :: shareds) in *.
    assert (Dall : forall i sh, nth_error all i = Some sh -> length (dd_alphas sh) = dd_dim sh0).
    { intros i sh Hi. apply nth_error_In in Hi. destruct Hi as [<-|Hi]; [reflexivity|].
      rewrite Forall_forall in D. now apply D. }
    assert (W' : List.Forall (fun g => length (dd_counts g) = dd_dim sh0) gs).
    { eapply Forall_impl; [|exact W]. intros g (A & _). exact A. }
    match goal with |- (let* p := vfor 1 _ ?b ?i in _) = _ => set (body := b); set (p0 := i) end.
    destruct (vfor_inv (fun i (p : dd_ds R * list R) => length (snd p) = length out /\
        (exists sh, nth_error all (i - 1) = Some sh /\ ds_ok (dd_alphas sh) gs (fst p)) /\
        forall j sh, (j < i)%nat -> nth_error all j = Some sh ->
          nth_error (snd p) j = Some (rsum (map (dd_sd lg (dd_alphas sh)) gs))) body (length shareds) 1 p0)
      as (p & E & Lp & _ & HP).
    { unfold p0. cbn [fst snd]. split; [now rewrite length_upd|]. split.
      - exists sh0. split; [reflexivity|exact H0].
      - intros j sh Hj Hs. assert (j = 0)%nat by lia. subst j. cbn in Hs. injection Hs as <-.
        apply nth_error_upd_eq. lia. }
    { intros i p Hi (Lp & (prev & Hprev & Hds) & HP). unfold body.
      rewrite (vget_nth _ _ _ Hprev). cbn [obind].
      destruct (vget_some all i) as (cur & Hcur & ->); [cbn [all length]; lia|]. cbn [obind].
      pose proof (Dall _ _ Hprev) as Dp. pose proof (Dall _ _ Hcur) as Dc.
      match goal with |- exists s', (let* s := vfor 0 _ ?b _ in _) = _ /\ _ => set (ib := b) end.
      destruct (vfor_inv (fun v s => ds_ok (mixed v (dd_alphas prev) (dd_alphas cur)) gs s) ib (dd_dim sh0) 0 (fst p)) as (s1 & -> & H1).
      { unfold mixed. cbn [firstn skipn app]. exact Hds. }
      { intros v s Hv Hs. unfold ib. rewrite !vget_rn by lia. cbn [obind].
        assert (Ep : length (dd_alphas prev) = length (dd_alphas cur)) by congruence.
        rewrite mixed_S by (congruence || lia).
        destruct (fneqb (rn (dd_alphas cur) v) (rn (dd_alphas prev) v)) eqn:Q.
        - rewrite <- (mixed_at v (dd_alphas prev) (dd_alphas cur)) by (congruence || lia).
          apply dd_ds_update_ok; auto.
          + rewrite mixed_length by congruence. lia.
          + rewrite mixed_length by congruence. rewrite Dp. exact W'.
        - exists s. split; [reflexivity|]. apply fneqb_false in Q. rewrite Q.
          rewrite <- (mixed_at v (dd_alphas prev) (dd_alphas cur)) at 1 by (congruence || lia).
          replace (upd (mixed v (dd_alphas prev) (dd_alphas cur)) v (rn (mixed v (dd_alphas prev) (dd_alphas cur)) v))
            with (mixed v (dd_alphas prev) (dd_alphas cur)); [exact Hs|].
          apply nth_error_ext. intro j. destruct (Nat.eq_dec v j) as [<-|Ne].
          + rewrite nth_error_upd_eq by (rewrite mixed_length by congruence; lia).
            apply nth_rn. rewrite mixed_length by congruence. lia.
          + now rewrite nth_error_upd_ne by auto. }
      cbn [obind]. cbn [Nat.add] in H1.
      replace (mixed (dd_dim sh0) (dd_alphas prev) (dd_alphas cur)) with (dd_alphas cur) in H1.
      2:{ unfold mixed. rewrite <- Dp at 2. rewrite skipn_all, app_nil_r. rewrite <- Dc. symmetry. apply firstn_all. }
      rewrite (dd_ds_eval_ok _ _ _ H1). cbn [obind]. rewrite vset_ok by (cbn [all length] in *; lia). cbn [obind].
      eexists. split; [reflexivity|]. cbn [fst snd]. split; [now rewrite length_upd|]. split.
      - exists cur. replace (S i - 1)%nat with i by lia. split; [exact Hcur|exact H1].
      - intros j sh Hj Hs. destruct (Nat.eq_dec i j) as [<-|Ne].
        + rewrite nth_error_upd_eq by (cbn [all length] in *; lia). congruence.
        + rewrite nth_error_upd_ne by auto. apply HP; [lia|exact Hs]. }
    replace (length all - 1)%nat with (length shareds) by (cbn [all length]; lia).
    rewrite E. cbn [obind]. f_equal. apply nth_error_ext. intro j. rewrite nth_error_map.
    destruct (nth_error all j) as [sh|] eqn:Hs; cbn [option_map].
    - apply HP; [|exact Hs]. assert (nth_error all j <> None) as Q by congruence. apply nth_error_Some in Q.
      cbn [all length] in Q. lia.
    - apply nth_error_None in Hs. apply nth_error_None. cbn [all length] in *. lia.
  Qed.

  Lemma dd_ds_score_ok old (sh : dd_shared R) gs : List.Forall (dd_wf (dd_dim sh)) gs ->
    dd_ds_score_data old sh gs = Ok (rsum (map (dd_sd lg (dd_alphas sh)) gs)).
  Proof.
    intro W. unfold dd_ds_score_data. destruct (dd_ds_init_ok old sh gs W) as (s & -> & H). cbn [obind].
    now apply dd_ds_eval_ok.
  Qed.
End R.
