From Coq Require Import Reals Lra.
From Verif.model Require Import Base Num NumR VectorMath Random.
From Verif.spec Require Import PartitionSpec RandomSpec VectorSpec.
From Verif.proof Require Import BaseProof VectorProof.

(** Loops that overwrite entry i with the known value vals[i] and accumulate. *)
Lemma vfor_fill {F B : Type} (body : nat -> list F * B -> outcome (list F * B)) (f : B -> F -> B)
    (l vals : list F) :
  length vals = length l ->
  (forall i l' t v, length l' = length l -> (forall j, i <= j -> nth_error l' j = nth_error l j) ->
     nth_error vals i = Some v -> body i (l', t) = Ok (upd l' i v, f t v)) ->
  forall t, vfor 0 (length l) body (l, t) = Ok (vals, fold_left f vals t).
Proof.
  intros Hlen Hb.
  assert (G : forall n lo l' t, lo + n = length l -> length l' = length l ->
     (forall j, lo <= j -> nth_error l' j = nth_error l j) ->
     (forall j, j < lo -> nth_error l' j = nth_error vals j) ->
     vfor lo n body (l', t) = Ok (vals, fold_left f (skipn lo vals) t)).
  { induction n as [|n IH]; intros lo l' t Hn Hl Hr Hd; cbn [vfor].
    - rewrite skipn_all2 by lia. cbn. do 2 f_equal. apply nth_error_ext. intro i.
      destruct (Nat.lt_ge_cases i lo); [auto|].
      transitivity (@None F); [|symmetry]; apply nth_error_None; lia.
    - destruct (vget_some vals lo) as (v & Hv & _); [lia|].
      rewrite (Hb lo l' t v Hl Hr Hv). cbn [obind]. rewrite (skipn_nth _ _ _ Hv). cbn [fold_left].
      apply IH.
      + lia.
      + rewrite length_upd. exact Hl.
      + intros j Hj. rewrite nth_error_upd_ne by lia. apply Hr. lia.
      + intros j Hj. destruct (Nat.eq_dec j lo) as [->|Hne].
        * rewrite nth_error_upd_eq by lia. auto.
        * rewrite nth_error_upd_ne by lia. apply Hd. lia. }
  intro t. rewrite (G (length l) 0 l t); auto. intros; lia.
Qed.

Section Any.
  Context {F : Type} {N : Num F}.

  Lemma discrete_loop_range ps : forall i t j, discrete_loop i t ps = Some j -> i <= j < i + length ps.
  Proof.
    induction ps as [|p ps IH]; intros i t j H; cbn [discrete_loop] in H; [discriminate|].
    cbn [length]. destruct (nltb _ _).
    - injection H as <-. lia.
    - apply IH in H. lia.
  Qed.
  Lemma likelihoods_loop_range ls : forall i t j, likelihoods_loop i t ls = Some j -> i <= j < i + length ls.
  Proof.
    induction ls as [|p ls IH]; intros i t j H; cbn [likelihoods_loop] in H; [discriminate|].
    cbn [length]. destruct (nleb _ _).
    - injection H as <-. lia.
    - apply IH in H. lia.
  Qed.

  Lemma sample_discrete_range u ps : ps <> [] -> exists i, sample_discrete u ps = Ok i /\ i < length ps.
  Proof.
    intro H. unfold sample_discrete. destruct ps as [|p ps]; [congruence|]. cbn [length].
    cbn [dassert Nat.ltb Nat.leb obind]. destruct (discrete_loop _ _ _) as [j|] eqn:E.
    - apply discrete_loop_range in E. rewrite firstn_length in E. exists j. split; auto. cbn [length] in E. lia.
    - eexists. split; [reflexivity|]. lia.
  Qed.
  Lemma sample_likelihoods_range u ls total : ls <> [] ->
    exists i, sample_from_likelihoods u ls total = Ok i /\ i < length ls.
  Proof.
    intro H. unfold sample_from_likelihoods. destruct ls as [|p ls]; [congruence|].
    replace (0 <? length (p :: ls)) with true by reflexivity. cbn [dassert obind].
    destruct (likelihoods_loop _ _ _) as [j|] eqn:E.
    - apply likelihoods_loop_range in E. exists j. split; auto. lia.
    - eexists. split; [reflexivity|]. cbn [length]. lia.
  Qed.
  Lemma sample_likelihoods_sum_range u ls : ls <> [] ->
    exists i, sample_from_likelihoods_sum u ls = Ok i /\ i < length ls.
  Proof.
    intro H. unfold sample_from_likelihoods_sum. rewrite vector_sum_spec by lia. cbn [obind].
    apply sample_likelihoods_range. exact H.
  Qed.
  Lemma sample_empty u total : sample_discrete u [] = Fail /\ sample_from_likelihoods u [] total = Fail
    /\ sample_from_likelihoods_sum u [] = Fail.
  Proof. repeat split. Qed.

  Lemma stl_fill (scores : list F) x l : scores = x :: l -> exists m,
    vector_max (length scores) scores = Ok m /\
    scores_to_likelihoods scores =
    Ok (map (fun s => nexp (nsub s m)) scores, fold_left nadd (map (fun s => nexp (nsub s m)) scores) (nof 0)).
  Proof.
    intros ->. unfold scores_to_likelihoods. rewrite vector_max_fold by (simpl; lia). eexists. split; [reflexivity|].
    cbn [obind]. set (m := fold_first _ _ _ _). apply vfor_fill.
    - apply map_length.
    - intros i l' t v Hl Hr Hv. rewrite nth_error_map in Hv.
      destruct (nth_error (x :: l) i) as [s|] eqn:Es; [|discriminate]. injection Hv as <-.
      cbn [fst snd]. rewrite (vget_nth l' i s) by (rewrite Hr; auto). cbn [obind].
      rewrite vset_ok; [reflexivity|]. rewrite Hl. apply nth_error_Some. congruence.
  Qed.

  Lemma sample_scores_range u scores : scores <> [] ->
    exists i l, sample_from_scores_overwrite u scores = Ok (i, l) /\ i < length scores /\ length l = length scores.
  Proof.
    intro H. destruct scores as [|x l]; [congruence|]. destruct (stl_fill _ x l eq_refl) as (m & _ & E).
    unfold sample_from_scores_overwrite. rewrite E. cbn [obind fst snd].
    destruct (sample_likelihoods_range u (map (fun s => nexp (nsub s m)) (x :: l))
      (fold_left nadd (map (fun s => nexp (nsub s m)) (x :: l)) (nof 0))) as (i & Ei & Hi); [discriminate|].
    rewrite Ei. cbn [obind]. do 2 eexists. split; [reflexivity|].
    rewrite map_length in *. auto.
  Qed.

  (** Pairs. *)
  Lemma pair_ok {T} (urn : list T) f1 f2 : f1 < length urn -> f2 < length urn - 1 ->
    exists a b g2, sample_pair_from_urn f1 f2 urn = Ok (a, b) /\ g2 = (if f1 <=? f2 then S f2 else f2) /\
      g2 < length urn /\ g2 <> f1 /\ nth_error urn f1 = Some a /\ nth_error urn g2 = Some b.
  Proof.
    intros H1 H2. unfold sample_pair_from_urn.
    assert (E2 : (2 <=? length urn) = true) by (apply Nat.leb_le; lia). rewrite E2. cbn [dassert obind].
    set (g := if f1 <=? f2 then f2 + 1 else f2).
    assert (Hg : g < length urn /\ g <> f1) by (unfold g; destruct (Nat.leb_spec f1 f2); lia).
    assert (E1 : (f1 <? length urn) = true) by (apply Nat.ltb_lt; lia). rewrite E1. cbn [dassert obind].
    assert (E3 : (g <? length urn) = true) by (apply Nat.ltb_lt; lia). rewrite E3. cbn [dassert obind].
    assert (E4 : negb (f1 =? g) = true) by (destruct (Nat.eqb_spec f1 g); [lia|reflexivity]).
    rewrite E4. cbn [dassert obind].
    destruct (vget_some urn f1 H1) as (a & Ha & ->). destruct (vget_some urn g) as (b & Hb & ->); [lia|].
    cbn [obind]. exists a, b, g. split; [reflexivity|]. split; [unfold g; destruct (f1 <=? f2); lia|].
    intuition.
  Qed.
  (** Both directions of the bijection, on the positions. *)
  Definition pair_pos (f1 f2 : nat) : nat * nat := (f1, if f1 <=? f2 then S f2 else f2).
  Lemma pair_bij n p q : 2 <= n -> p < n -> q < n -> p <> q ->
    exists! f, (fst f < n /\ snd f < n - 1) /\ pair_pos (fst f) (snd f) = (p, q).
  Proof.
    intros Hn Hp Hq Hne. exists (p, if p <? q then q - 1 else q). split.
    - cbn [fst snd]. unfold pair_pos. destruct (Nat.ltb_spec p q).
      + split; [lia|]. destruct (Nat.leb_spec p (q - 1)); f_equal; lia.
      + split; [lia|]. destruct (Nat.leb_spec p q); f_equal; lia.
    - intros [f1 f2] [[H1 H2] E]. cbn [fst snd] in *. unfold pair_pos in E.
      injection E as -> E. f_equal. destruct (Nat.leb_spec p f2); destruct (Nat.ltb_spec p q); lia.
  Qed.
End Any.

(** Exact arithmetic. *)
Section R.
  Variable lg : R -> R.
  Local Instance NR : Num R := NumR lg.
  Local Open Scope R_scope.

  Lemma rltb_spec x y : reflect (x < y) (rltb x y).
  Proof. unfold rltb. destruct (Rlt_dec x y); constructor; auto. Qed.
  Lemma rleb_spec x y : reflect (x <= y) (rleb x y).
  Proof. unfold rleb. destruct (Rle_dec x y); constructor; auto. Qed.

  Lemma cum_S p ps i : cum (p :: ps) (S i) = p + cum ps i.
  Proof. reflexivity. Qed.
  Lemma cum_mono l i j : Forall (fun x => 0 <= x) l -> (i <= j)%nat -> cum l i <= cum l j.
  Proof.
    intros H. revert i j. induction H as [|x l Hx Hl IH]; intros i j Hij.
    - unfold cum. rewrite !firstn_nil. lra.
    - destruct i as [|i]; destruct j as [|j]; try lia; rewrite ?cum_S.
      + lra.
      + unfold cum at 1. simpl. assert (H0 := IH O j ltac:(lia)). unfold cum at 1 in H0. simpl in H0. lra.
      + assert (H0 := IH i j ltac:(lia)). lra.
  Qed.
  Lemma cum_all l i : (length l <= i)%nat -> cum l i = rsum l.
  Proof. intro H. unfold cum. now rewrite firstn_all2. Qed.

  Lemma discrete_loop_R ps : forall i t, Forall (fun x => 0 <= x) ps ->
    match discrete_loop i t ps with
    | Some j => exists k, j = (i + k)%nat /\ (k < length ps)%nat /\ ((0 < k)%nat -> cum ps k <= t) /\ t < cum ps (S k)
    | None => ps <> [] -> rsum ps <= t
    end.
  Proof.
    induction ps as [|p ps IH]; intros i t Hp; cbn [discrete_loop].
    - congruence.
    - apply Forall_inv_tail in Hp as Hps. apply Forall_inv in Hp.
      cbn [nltb nsub nof NR NumR]. destruct (rltb_spec (t - p) 0).
      + exists O. split; [lia|]. split; [simpl; lia|]. split; [lia|]. rewrite cum_S. unfold cum. simpl. lra.
      + specialize (IH (S i) (t - p) Hps). destruct (discrete_loop (S i) (t - p) ps) as [j|].
        * destruct IH as (k & -> & Hk & H1 & H2). exists (S k). split; [lia|]. split; [simpl; lia|].
          split; [|rewrite cum_S; lra]. intros _. rewrite cum_S. destruct k as [|k].
          -- unfold cum. simpl. lra.
          -- specialize (H1 ltac:(lia)). lra.
        * intros _. simpl. destruct ps as [|q ps]; [simpl; lra|]. specialize (IH ltac:(discriminate)). lra.
  Qed.
  Lemma likelihoods_loop_R ps : forall i t, Forall (fun x => 0 <= x) ps ->
    match likelihoods_loop i t ps with
    | Some j => exists k, j = (i + k)%nat /\ (k < length ps)%nat /\ ((0 < k)%nat -> cum ps k < t) /\ t <= cum ps (S k)
    | None => ps <> [] -> rsum ps < t
    end.
  Proof.
    induction ps as [|p ps IH]; intros i t Hp; cbn [likelihoods_loop].
    - congruence.
    - apply Forall_inv_tail in Hp as Hps. apply Forall_inv in Hp.
      cbn [nleb nsub nof NR NumR]. destruct (rleb_spec (t - p) 0).
      + exists O. split; [lia|]. split; [simpl; lia|]. split; [lia|]. rewrite cum_S. unfold cum. simpl. lra.
      + specialize (IH (S i) (t - p) Hps). destruct (likelihoods_loop (S i) (t - p) ps) as [j|].
        * destruct IH as (k & -> & Hk & H1 & H2). exists (S k). split; [lia|]. split; [simpl; lia|].
          split; [|rewrite cum_S; lra]. intros _. rewrite cum_S. destruct k as [|k].
          -- unfold cum. simpl. lra.
          -- specialize (H1 ltac:(lia)). lra.
        * intros _. simpl. destruct ps as [|q ps]; [simpl; lra|]. specialize (IH ltac:(discriminate)). lra.
  Qed.

  Lemma cum_firstn l n i : (i <= n)%nat -> cum (firstn n l) i = cum l i.
  Proof. intro H. unfold cum. rewrite firstn_firstn. now rewrite Nat.min_l. Qed.
  Lemma Forall_firstn' {A} (P : A -> Prop) n l : Forall P l -> Forall P (firstn n l).
  Proof. intro H. revert n. induction H; intros [|n]; simpl; constructor; auto. Qed.

  Lemma discrete_cdf u ps i : ps <> [] -> Forall (fun x => 0 <= x) ps -> rsum ps = 1 -> 0 <= u < 1 ->
    (sample_discrete u ps = Ok i <-> (i < length ps)%nat /\ cum ps i <= u < cum ps (S i)).
  Proof.
    intros Hne Hp Hs Hu.
    assert (Hu0 : u < rsum ps) by lra.
    assert (Hex : exists k, sample_discrete u ps = Ok k /\ (k < length ps)%nat /\ cum ps k <= u < cum ps (S k)).
    { unfold sample_discrete. destruct (length ps) as [|n] eqn:En; [destruct ps; simpl in En; congruence|].
      replace (0 <? S n)%nat with true by reflexivity. cbn [dassert obind].
      replace (S n - 1)%nat with n by lia.
      assert (H := discrete_loop_R (firstn n ps) 0 u (Forall_firstn' _ _ _ Hp)).
      destruct (discrete_loop 0 u (firstn n ps)) as [j|].
      - destruct H as (k & -> & Hk & H1 & H2). rewrite firstn_length in Hk. exists (0 + k)%nat.
        split; [reflexivity|]. split; [lia|]. cbn [Nat.add].
        rewrite cum_firstn in H2 by lia. split; [|exact H2].
        destruct k as [|k]; [unfold cum; simpl; lra|].
        rewrite cum_firstn in H1 by lia. apply H1. lia.
      - exists n. split; [reflexivity|]. split; [lia|]. split.
        + destruct n as [|n]; [unfold cum; simpl; lra|]. unfold cum. apply H.
          destruct ps; [congruence|]. simpl. discriminate.
        + rewrite cum_all by lia. exact Hu0. }
    destruct Hex as (k & Ek & Hk & Hc). rewrite Ek. split.
    - intros [= <-]. auto.
    - intros [Hi Hc']. f_equal. destruct (Nat.lt_trichotomy k i) as [Hlt|[E|Hlt]]; auto; exfalso.
      + assert (H := cum_mono ps (S k) i Hp ltac:(lia)). lra.
      + assert (H := cum_mono ps (S i) k Hp ltac:(lia)). lra.
  Qed.

  Lemma likelihoods_cdf u ls i : ls <> [] -> Forall (fun x => 0 <= x) ls -> 0 <= u < 1 ->
    (sample_from_likelihoods u ls (rsum ls) = Ok i <->
     (i < length ls)%nat /\ (i <> O -> cum ls i < rsum ls * u) /\ rsum ls * u <= cum ls (S i)).
  Proof.
    intros Hne Hp Hu.
    assert (Hnn : 0 <= rsum ls).
    { assert (H := cum_mono ls 0 (length ls) Hp ltac:(lia)). rewrite (cum_all ls (length ls)) in H by lia.
      unfold cum in H. simpl in H. exact H. }
    assert (Hu0 : rsum ls * u <= rsum ls).
    { rewrite <- (Rmult_1_r (rsum ls)) at 2. apply Rmult_le_compat_l; lra. }
    assert (Hex : exists k, sample_from_likelihoods u ls (rsum ls) = Ok k /\ (k < length ls)%nat /\
       (k <> O -> cum ls k < rsum ls * u) /\ rsum ls * u <= cum ls (S k)).
    { unfold sample_from_likelihoods.
      assert (El : (0 <? length ls)%nat = true) by (destruct ls; [congruence|reflexivity]).
      rewrite El. cbn [dassert obind]. cbn [nmul NR NumR].
      assert (H := likelihoods_loop_R ls 0 (rsum ls * u) Hp).
      destruct (likelihoods_loop 0 (rsum ls * u) ls) as [j|].
      - destruct H as (k & -> & Hk & H1 & H2). exists (0 + k)%nat. split; [reflexivity|]. cbn [Nat.add].
        split; [lia|]. split; [|exact H2]. intro. apply H1. lia.
      - specialize (H Hne). lra. }
    destruct Hex as (k & Ek & Hk & Hc1 & Hc2). rewrite Ek. split.
    - intros [= <-]. auto.
    - intros (Hi & Hi1 & Hi2). f_equal. destruct (Nat.lt_trichotomy k i) as [Hlt|[E|Hlt]]; auto; exfalso.
      + assert (H := cum_mono ls (S k) i Hp ltac:(lia)). specialize (Hi1 ltac:(lia)). lra.
      + assert (H := cum_mono ls (S i) k Hp ltac:(lia)). specialize (Hc1 ltac:(lia)). lra.
  Qed.

  Lemma fold_left_rsum l : forall t, fold_left nadd l t = t + rsum l.
  Proof. induction l as [|x l IH]; intro t; cbn [fold_left rsum]; [lra|]. rewrite IH. cbn [nadd NR NumR]. lra. Qed.

  Lemma sum_is_rsum (l : list R) : vector_sum (length l) l = Ok (rsum l).
  Proof.
    rewrite vector_sum_spec by lia. unfold fold_first. rewrite firstn_all, fold_left_rsum.
    cbn [nof NR NumR]. f_equal. lra.
  Qed.

  Lemma likelihoods_sum_cdf u ls i : ls <> [] -> Forall (fun x => 0 <= x) ls -> 0 <= u < 1 ->
    (sample_from_likelihoods_sum u ls = Ok i <->
     (i < length ls)%nat /\ (i <> O -> cum ls i < rsum ls * u) /\ rsum ls * u <= cum ls (S i)).
  Proof.
    intros. unfold sample_from_likelihoods_sum. rewrite sum_is_rsum. cbn [obind]. apply likelihoods_cdf; auto.
  Qed.

  (** Maximum. *)
  Lemma fold_max l : forall x, is_max (x :: l) (fold_left (fun m y => if rltb m y then y else m) l x).
  Proof.
    induction l as [|y l IH]; intro x; cbn [fold_left].
    - split; [left; reflexivity|]. intros z [<-|[]]. lra.
    - destruct (rltb_spec x y) as [Hxy|Hxy].
      + destruct (IH y) as [A B]. split.
        * right. destruct A as [<-|A]; [left|right]; auto.
        * intros z [<-|[<-|Hz]]; [|apply B; left; reflexivity|apply B; right; auto].
          assert (H := B y (or_introl eq_refl)). lra.
      + destruct (IH x) as [A B]. split.
        * destruct A as [<-|A]; [left; reflexivity|right; right; auto].
        * intros z [<-|[<-|Hz]]; [apply B; left; reflexivity| |apply B; right; auto].
          assert (H := B x (or_introl eq_refl)). lra.
  Qed.
  Lemma fold_min l : forall x, is_min (x :: l) (fold_left (fun m y => if rltb y m then y else m) l x).
  Proof.
    induction l as [|y l IH]; intro x; cbn [fold_left].
    - split; [left; reflexivity|]. intros z [<-|[]]. lra.
    - destruct (rltb_spec y x) as [Hxy|Hxy].
      + destruct (IH y) as [A B]. split.
        * right. destruct A as [<-|A]; [left|right]; auto.
        * intros z [<-|[<-|Hz]]; [|apply B; left; reflexivity|apply B; right; auto].
          assert (H := B y (or_introl eq_refl)). lra.
      + destruct (IH x) as [A B]. split.
        * destruct A as [<-|A]; [left; reflexivity|right; right; auto].
        * intros z [<-|[<-|Hz]]; [apply B; left; reflexivity| |apply B; right; auto].
          assert (H := B x (or_introl eq_refl)). lra.
  Qed.
  Lemma max_ok l : l <> [] -> exists m, vector_max (length l) l = Ok m /\ is_max l m.
  Proof.
    intro H. destruct l as [|x l]; [congruence|]. rewrite vector_max_fold by (simpl; lia).
    eexists. split; [reflexivity|]. unfold fold_first. rewrite firstn_all. cbn [fold_left].
    cbn [nltb NR NumR]. destruct (rltb_spec x x); [lra|]. apply fold_max.
  Qed.
  Lemma min_ok l : l <> [] -> exists m, vector_min (length l) l = Ok m /\ is_min l m.
  Proof.
    intro H. destruct l as [|x l]; [congruence|]. rewrite vector_min_fold by (simpl; lia).
    eexists. split; [reflexivity|]. unfold fold_first. rewrite firstn_all. cbn [fold_left].
    cbn [nltb NR NumR]. destruct (rltb_spec x x); [lra|]. apply fold_min.
  Qed.

  Lemma rsum_scale (c : R) l : rsum (map (fun x => x * c) l) = rsum l * c.
  Proof. induction l; simpl; lra. Qed.
  Lemma rsum_exp_shift l m : rsum (map (fun s => exp (s - m)) l) = rsum (map exp l) * exp (- m).
  Proof.
    rewrite <- rsum_scale, map_map. f_equal. apply map_ext. intro s. rewrite <- exp_plus. f_equal. 
  Qed.
  Lemma rsum_exp_pos l : l <> [] -> 0 < rsum (map exp l).
  Proof.
    assert (H0 : forall l, 0 <= rsum (map exp l)).
    { induction l0; simpl; [lra|]. pose proof (exp_pos a). lra. }
    destruct l as [|x l]; [congruence|]. intros _. simpl. pose proof (exp_pos x). specialize (H0 l). lra.
  Qed.

  Lemma log_sum_exp_ok l : l <> [] -> log_sum_exp l = Ok (log_normaliser l).
  Proof.
    intro H. unfold log_sum_exp. replace (length l =? 0)%nat with false by (destruct l; [congruence|reflexivity]).
    destruct (max_ok l H) as (m & -> & _). cbn [obind].
    rewrite (vfor_fold l (fun t s => nadd t (nexp (nsub s m)))); [|intros i x b Hx; rewrite (vget_nth _ _ _ Hx); reflexivity|lia].
    cbn [obind skipn]. rewrite firstn_all. f_equal.
    assert (E : forall l t, fold_left (fun t s => nadd t (nexp (nsub s m))) l t = t + rsum (map (fun s => exp (s - m)) l)).
    { induction l0 as [|x l0 IH]; intro t; cbn [fold_left map rsum]; [lra|]. rewrite IH.
      cbn [nadd nexp nsub NR NumR]. lra. }
    rewrite E. cbn [nof nlog nadd NR NumR]. rewrite Rplus_0_l, rsum_exp_shift.
    rewrite ln_mult; [|apply rsum_exp_pos; auto|apply exp_pos]. rewrite ln_exp. unfold log_normaliser. lra.
  Qed.

  Lemma stl_R l : l <> [] -> exists m, is_max l m /\
    scores_to_likelihoods l = Ok (map (fun s => exp (s - m)) l, rsum (map (fun s => exp (s - m)) l)).
  Proof.
    intro H. destruct (max_ok l H) as (m & Em & Hm). destruct l as [|x l]; [congruence|].
    destruct (stl_fill _ x l eq_refl) as (m' & Em' & E). rewrite Em in Em'. injection Em' as <-.
    exists m. split; [exact Hm|]. rewrite E. do 2 f_equal. rewrite fold_left_rsum. cbn [nof NR NumR nexp nsub]. lra.
  Qed.

  Lemma exp_norm l s m : l <> [] ->
    exp (s - log_normaliser l) = exp (s - m) * / (rsum (map exp l) * exp (- m)).
  Proof.
    intro H. pose proof (rsum_exp_pos l H). pose proof (exp_pos (- m)).
    unfold log_normaliser, Rminus. rewrite !exp_plus, exp_Ropp, exp_ln by auto. field. lra.
  Qed.

  Lemma scores_to_probs_ok l : l <> [] ->
    scores_to_probs l = Ok (map (fun s => exp (s - log_normaliser l)) l).
  Proof.
    intro H. unfold scores_to_probs. destruct (stl_R l H) as (m & _ & ->). cbn [obind fst snd].
    unfold vector_scale. rewrite <- (map_length (fun s => exp (s - m)) l) at 1.
    rewrite (vupdate_list _ (fun x => x * (1 / rsum (map (fun s => exp (s - m)) l)))) by reflexivity.
    rewrite map_map. f_equal. apply map_ext. intro s. rewrite rsum_exp_shift.
    rewrite (exp_norm l s m H). unfold Rdiv. now rewrite Rmult_1_l.
  Qed.
  Lemma probs_sum l : l <> [] -> rsum (map (fun s => exp (s - log_normaliser l)) l) = 1.
  Proof.
    intro H. rewrite rsum_exp_shift. unfold log_normaliser. rewrite exp_Ropp, exp_ln by (apply rsum_exp_pos; auto).
    apply Rinv_r. pose proof (rsum_exp_pos l H). lra.
  Qed.
  Lemma normaliser_shift l c : l <> [] -> log_normaliser (map (fun s => s + c) l) = log_normaliser l + c.
  Proof.
    intro H. unfold log_normaliser. rewrite map_map.
    replace (rsum (map (fun x => exp (x + c)) l)) with (rsum (map exp l) * exp c).
    - rewrite ln_mult, ln_exp; auto using exp_pos, rsum_exp_pos.
    - rewrite <- rsum_scale, map_map. f_equal. apply map_ext. intro. symmetry. apply exp_plus.
  Qed.

  Lemma score_from_scores_ok l i x : nth_error l i = Some x ->
    score_from_scores_overwrite i l = Ok (x - log_normaliser l).
  Proof.
    intro Hx. assert (H : l <> []) by (intros ->; destruct i; discriminate).
    unfold score_from_scores_overwrite. destruct (max_ok l H) as (m & -> & _). cbn [obind].
    rewrite (vfor_fill _ (fun t v => nadd t (nexp v)) l (map (fun s => s - m) l)).
    - cbn [obind fst snd]. rewrite (vget_nth _ i (x - m)) by (rewrite nth_error_map, Hx; reflexivity). cbn [obind].
      f_equal.
      assert (E : forall l t, fold_left (fun t v => nadd t (nexp v)) (map (fun s => s - m) l) t = t + rsum (map (fun s => exp (s - m)) l)).
      { induction l0 as [|y l0 IH]; intro t; cbn [fold_left map rsum]; [lra|]. rewrite IH.
        cbn [nadd nexp nsub NR NumR]. lra. }
      rewrite E. cbn [nof nlog nsub NR NumR]. rewrite Rplus_0_l, rsum_exp_shift.
      rewrite ln_mult; [|apply rsum_exp_pos; auto|apply exp_pos]. rewrite ln_exp. unfold log_normaliser. lra.
    - apply map_length.
    - intros j l' t v Hl Hr Hv. rewrite nth_error_map in Hv.
      destruct (nth_error l j) as [s|] eqn:Es; [|discriminate]. injection Hv as <-.
      cbn [fst snd]. rewrite (vget_nth l' j s) by (rewrite Hr; auto). cbn [obind].
      rewrite vset_ok; [reflexivity|]. rewrite Hl. apply nth_error_Some. congruence.
  Qed.

  Lemma cum_map_scale c l i : cum (map (fun x => x * c) l) i = cum l i * c.
  Proof. unfold cum. rewrite firstn_map, rsum_scale. reflexivity. Qed.

  (** Sampling from scores is inverse-CDF sampling of the normalised probabilities, and the
      reported probability is the normalised one. *)
  Lemma sample_scores_cdf u l i : l <> [] -> 0 <= u < 1 ->
    ((exists l', sample_from_scores_overwrite u l = Ok (i, l')) <->
     (i < length l)%nat /\
     (i <> O -> cum (map (fun s => exp (s - log_normaliser l)) l) i < u) /\
     u <= cum (map (fun s => exp (s - log_normaliser l)) l) (S i)).
  Proof.
    intros H Hu. destruct (stl_R l H) as (m & _ & E). unfold sample_from_scores_overwrite. rewrite E. cbn [obind fst snd].
    set (ls := map (fun s => exp (s - m)) l).
    assert (Hls : ls <> []) by (unfold ls; destruct l; [congruence|discriminate]).
    assert (Hnn : Forall (fun x => 0 <= x) ls).
    { apply Forall_forall. intros x Hx. apply in_map_iff in Hx. destruct Hx as (s & <- & _). left. apply exp_pos. }
    assert (Hpos : 0 < rsum ls).
    { unfold ls. rewrite rsum_exp_shift. apply Rmult_lt_0_compat; [apply rsum_exp_pos; auto|apply exp_pos]. }
    assert (EQ : map (fun s => exp (s - log_normaliser l)) l = map (fun x => x * / rsum ls) ls).
    { unfold ls at 2. rewrite map_map. apply map_ext. intro s. unfold ls. rewrite rsum_exp_shift.
      apply (exp_norm l s m H). }
    rewrite EQ, !cum_map_scale.
    assert (Hlen : length ls = length l) by apply map_length.
    assert (HC := likelihoods_cdf u ls i Hls Hnn Hu). rewrite Hlen in HC.
    assert (Q1 : forall c, c < rsum ls * u <-> c * / rsum ls < u).
    { intro c. split; intro Q.
      - apply Rmult_lt_reg_r with (rsum ls); auto. rewrite Rmult_assoc, Rinv_l by lra. lra.
      - apply (Rmult_lt_compat_r (rsum ls)) in Q; auto. rewrite Rmult_assoc, Rinv_l in Q by lra. lra. }
    assert (Q2 : forall c, rsum ls * u <= c <-> u <= c * / rsum ls).
    { intro c. split; intro Q.
      - apply Rmult_le_reg_r with (rsum ls); auto. rewrite Rmult_assoc, Rinv_l by lra. lra.
      - apply (Rmult_le_compat_r (rsum ls)) in Q; [|lra]. rewrite Rmult_assoc, Rinv_l in Q by lra. lra. }
    rewrite <- Q1, <- Q2. rewrite <- HC. split.
    - intros (l' & El). destruct (sample_from_likelihoods u ls (rsum ls)) as [j| |]; cbn [obind] in El; congruence.
    - intros ->. cbn [obind]. eauto.
  Qed.

  Lemma sample_prob_ok u l : l <> [] -> exists i x l',
    sample_from_scores_overwrite u l = Ok (i, l') /\ nth_error l i = Some x /\
    sample_prob_from_scores_overwrite u l = Ok (i, exp (x - log_normaliser l)).
  Proof.
    intros H. destruct (stl_R l H) as (m & _ & E). unfold sample_from_scores_overwrite, sample_prob_from_scores_overwrite.
    rewrite E. cbn [obind fst snd].
    set (ls := map (fun s => exp (s - m)) l).
    assert (Hls : ls <> []) by (unfold ls; destruct l; [congruence|discriminate]).
    destruct (sample_likelihoods_range u ls (rsum ls) Hls) as (i & -> & Hi). cbn [obind].
    assert (Hlen : length ls = length l) by apply map_length.
    destruct (vget_some l i) as (x & Hx & _); [lia|]. exists i, x, ls. split; [reflexivity|]. split; [exact Hx|].
    unfold ls at 1. rewrite (vget_nth _ i (exp (x - m))) by (rewrite nth_error_map, Hx; reflexivity). cbn [obind].
    do 2 f_equal. cbn [ndiv NR NumR]. unfold ls. rewrite rsum_exp_shift.
    symmetry. apply (exp_norm l x m H).
  Qed.

  (** Dirichlet. *)
  Definition dval (gam : nat -> R -> R) (i : nat) (a : R) : R := if Rlt_dec 0 a then gam i a else 0.
  Fixpoint mapi {A B} (f : nat -> A -> B) (lo : nat) (l : list A) : list B :=
    match l with [] => [] | x :: t => f lo x :: mapi f (S lo) t end.
  Lemma mapi_length {A B} (f : nat -> A -> B) l : forall lo, length (mapi f lo l) = length l.
  Proof. induction l; intro lo; simpl; auto. Qed.
  Lemma mapi_nth {A B} (f : nat -> A -> B) l : forall lo i, nth_error (mapi f lo l) i = option_map (f (lo + i)%nat) (nth_error l i).
  Proof.
    induction l as [|x l IH]; intros lo [|i]; simpl; auto.
    - now rewrite Nat.add_0_r. - rewrite IH. now rewrite Nat.add_succ_r.
  Qed.

  Lemma dirichlet_loop gam alphas (l : list R) src : length alphas = length l ->
    (src = Some alphas \/ (src = None /\ l = alphas)) ->
    vfor 0 (length l) (dirichlet_step gam src) (l, 0) =
    Ok (mapi (dval gam) 0 alphas, rsum (mapi (dval gam) 0 alphas)).
  Proof.
    intros Hl Hsrc. rewrite (vfor_fill _ (@nadd R NR) l (mapi (dval gam) 0 alphas)).
    - do 2 f_equal. rewrite (fold_left_rsum (mapi (dval gam) 0 alphas) 0). lra.
    - now rewrite mapi_length.
    - intros i l' t v Hl' Hr Hv. rewrite mapi_nth in Hv. cbn [Nat.add] in Hv.
      destruct (nth_error alphas i) as [a|] eqn:Ea; [|discriminate]. injection Hv as <-.
      assert (Hi : (i < length l')%nat) by (rewrite Hl', <- Hl; apply nth_error_Some; congruence).
      unfold dirichlet_step.
      replace (vget _ i) with (Ok a).
      2:{ destruct Hsrc as [->|[-> ->]]; symmetry; apply vget_nth; auto. rewrite Hr; auto. }
      cbn [obind]. cbn [nltb nof NR NumR]. unfold rltb, dval. destruct (Rlt_dec 0 a).
      + rewrite vset_ok by auto. reflexivity.
      + rewrite vset_ok by auto. cbn [obind]. rewrite Rplus_0_r. reflexivity.
  Qed.

  Lemma dirichlet_R gam alphas (l : list R) src : length alphas = length l ->
    (src = Some alphas \/ (src = None /\ l = alphas)) ->
    sample_dirichlet gam (length l) src l =
    Ok (map (fun x => x * (1 / rsum (mapi (dval gam) 0 alphas))) (mapi (dval gam) 0 alphas)).
  Proof.
    intros Hl Hsrc. unfold sample_dirichlet. change (nof 0) with 0. rewrite (dirichlet_loop gam alphas l src Hl Hsrc).
    cbn [obind fst snd]. rewrite <- Hl, <- (mapi_length (dval gam) alphas 0) at 1.
    apply (vupdate_list _ (fun x => x * (1 / rsum (mapi (dval gam) 0 alphas)))). reflexivity.
  Qed.

  Lemma dirichlet_ok gam alphas (l : list R) src : length alphas = length l ->
    (src = Some alphas \/ (src = None /\ l = alphas)) ->
    (forall i a, 0 < a -> 0 < gam i a) -> (exists a, In a alphas /\ 0 < a) ->
    exists out, sample_dirichlet gam (length l) src l = Ok out /\ length out = length alphas /\ rsum out = 1 /\
      (forall i a p, nth_error alphas i = Some a -> nth_error out i = Some p -> (0 < a -> 0 < p) /\ (a <= 0 -> p = 0)).
  Proof.
    intros Hl Hsrc Hg Hex. rewrite (dirichlet_R gam alphas l src Hl Hsrc).
    set (vs := mapi (dval gam) 0 alphas).
    assert (Hvs : Forall (fun x => 0 <= x) vs).
    { apply Forall_forall. intros x Hx. apply In_nth_error in Hx. destruct Hx as [i Hi]. unfold vs in Hi.
      rewrite mapi_nth in Hi. destruct (nth_error alphas i) as [a|]; [|discriminate]. injection Hi as <-.
      unfold dval. destruct (Rlt_dec 0 a); [left; auto|lra]. }
    assert (Hpos : 0 < rsum vs).
    { destruct Hex as (a & Ha & Ha0). apply In_nth_error in Ha. destruct Ha as [i Hi].
      assert (Hin : In (gam i a) vs).
      { apply nth_error_In with i. unfold vs. rewrite mapi_nth, Hi. cbn. unfold dval. destruct (Rlt_dec 0 a); [reflexivity|lra]. }
      specialize (Hg i a Ha0). revert Hin Hvs. generalize vs. clear - Hg. induction vs as [|y vs IH]; [intros []|].
      intros [->|Hin] Hvs; pose proof (Forall_inv Hvs); apply Forall_inv_tail in Hvs; simpl.
      - assert (0 <= rsum vs). { clear - Hvs. induction Hvs; simpl; lra. } lra.
      - specialize (IH Hin Hvs). lra. }
    eexists. split; [reflexivity|]. split; [rewrite map_length; apply mapi_length|]. split.
    - rewrite rsum_scale. field. lra.
    - intros i a p Ha Hp. rewrite nth_error_map in Hp. unfold vs at 2 in Hp. rewrite mapi_nth, Ha in Hp. cbn in Hp.
      injection Hp as <-. assert (0 < 1 / rsum vs) by (apply Rdiv_lt_0_compat; lra).
      unfold dval. split; intro; destruct (Rlt_dec 0 a); try lra.
      apply Rmult_lt_0_compat; auto.
  Qed.

  (** Safe version *)
  Definition dsval (gam : nat -> R -> R) (mv : R) (i : nat) (a : R) : R := gam i (a + mv).
  Lemma dirichlet_safe_R gam alphas (l : list R) src mv : length alphas = length l ->
    (src = Some alphas \/ (src = None /\ l = alphas)) -> 0 <= mv -> Forall (fun a => 0 < a + mv) alphas ->
    let vs := mapi (dsval gam mv) 0 alphas in
    let n := INR (length alphas) in
    sample_dirichlet_safe gam (length l) src l mv =
    Ok (map (fun x => x * (1 / rsum vs / (1 + mv * n)) + mv / (1 + mv * n)) vs).
  Proof.
    intros Hl Hsrc Hmv Ha vs n. unfold sample_dirichlet_safe. cbn [nleb nof NR NumR].
    destruct (rleb_spec 0 mv); [|lra]. cbn [dassert obind].
    rewrite (vfor_fill _ (@nadd R NR) l vs).
    - cbn [obind fst snd]. rewrite (fold_left_rsum vs 0), Rplus_0_l.
      rewrite <- Hl. rewrite <- INR_IZR_INZ. fold n. cbn [nadd nmul ndiv nof NR NumR].
      replace (length alphas) with (length vs) by apply mapi_length.
      apply (vupdate_list _ (fun x => x * (1 / rsum vs / (1 + mv * n)) + mv / (1 + mv * n))). reflexivity.
    - unfold vs. now rewrite mapi_length.
    - intros i l' t v Hl' Hr Hv. unfold vs in Hv. rewrite mapi_nth in Hv. cbn [Nat.add] in Hv.
      destruct (nth_error alphas i) as [a|] eqn:Ea; [|discriminate]. injection Hv as <-.
      assert (Hi : (i < length l')%nat) by (rewrite Hl', <- Hl; apply nth_error_Some; congruence).
      unfold dirichlet_safe_step.
      replace (vget _ i) with (Ok a).
      2:{ destruct Hsrc as [->|[-> ->]]; symmetry; apply vget_nth; auto. rewrite Hr; auto. }
      cbn [obind]. cbn [nltb nadd nof NR NumR].
      rewrite Forall_forall in Ha. specialize (Ha a (nth_error_In _ _ Ea)).
      destruct (rltb_spec 0 (a + mv)); [|lra]. cbn [dassert obind]. rewrite vset_ok by auto. reflexivity.
  Qed.

  Lemma rsum_affine c s l : rsum (map (fun x => x * c + s) l) = rsum l * c + INR (length l) * s.
  Proof. induction l as [|x l IH]; [simpl; lra|]. cbn [map rsum length]. rewrite IH, S_INR. lra. Qed.

  Lemma dirichlet_safe_ok gam alphas (l : list R) src mv : length alphas = length l -> alphas <> [] ->
    (src = Some alphas \/ (src = None /\ l = alphas)) -> 0 <= mv -> Forall (fun a => 0 < a + mv) alphas ->
    (forall i a, 0 < a -> 0 < gam i a) ->
    exists out, sample_dirichlet_safe gam (length l) src l mv = Ok out /\ length out = length alphas /\ rsum out = 1 /\
      Forall (fun p => mv / (1 + mv * INR (length alphas)) < p) out.
  Proof.
    intros Hl Hne Hsrc Hmv Ha Hg. rewrite (dirichlet_safe_R gam alphas l src mv Hl Hsrc Hmv Ha). cbn zeta.
    set (vs := mapi (dsval gam mv) 0 alphas). set (n := INR (length alphas)).
    assert (Hvs : Forall (fun x => 0 < x) vs).
    { apply Forall_forall. intros x Hx. apply In_nth_error in Hx. destruct Hx as [i Hi]. unfold vs in Hi.
      rewrite mapi_nth in Hi. destruct (nth_error alphas i) as [a|] eqn:Ea; [|discriminate]. injection Hi as <-.
      rewrite Forall_forall in Ha. apply Hg. apply Ha. eapply nth_error_In; eauto. }
    assert (Hlv : length vs = length alphas) by apply mapi_length.
    assert (Hpos : 0 < rsum vs).
    { destruct vs as [|v vs']; [destruct alphas; simpl in Hlv; congruence|]. pose proof (Forall_inv Hvs).
      assert (0 <= rsum vs'). { apply Forall_inv_tail in Hvs. clear - Hvs. induction Hvs; simpl; lra. } simpl. lra. }
    assert (Hn : 0 <= n) by apply pos_INR.
    assert (Hd : 0 < 1 + mv * n). { assert (0 <= mv * n) by (apply Rmult_le_pos; auto). lra. }
    eexists. split; [reflexivity|]. split; [now rewrite map_length|]. split.
    - rewrite rsum_affine, Hlv. fold n. field. lra.
    - apply Forall_forall. intros p Hp. apply in_map_iff in Hp. destruct Hp as (v & <- & Hv).
      rewrite Forall_forall in Hvs. specialize (Hvs v Hv).
      assert (0 < v * (1 / rsum vs / (1 + mv * n))).
      { apply Rmult_lt_0_compat; auto. apply Rdiv_lt_0_compat; auto. apply Rdiv_lt_0_compat; lra. }
      lra.
  Qed.

  (** Beta *)
  Lemma sample_beta_range x y u a b : 0 <= x -> 0 <= y -> 0 <= sample_beta x y u a b <= 1.
  Proof.
    intros Hx Hy. unfold sample_beta, iszero. cbn [nleb nltb ndiv nadd nof NR NumR].
    destruct (rleb_spec x 0), (rleb_spec 0 x), (rleb_spec y 0), (rleb_spec 0 y); cbn [andb]; try lra;
      try (destruct (rltb _ _); lra).
    all: assert (0 < x + y) by lra; split;
      [apply Rmult_le_pos; [lra|left; apply Rinv_0_lt_compat; lra]|
       apply Rmult_le_reg_r with (x + y); [lra|]; unfold Rdiv; rewrite Rmult_assoc, Rinv_l by lra; lra].
  Qed.
  Lemma sample_beta_safe_range x y u a b mv : 0 <= x -> 0 <= y -> 0 < a -> 0 <= mv ->
    exists p, sample_beta_safe x y u a b mv = Ok p /\ mv / (1 + mv) <= p <= 1.
  Proof.
    intros Hx Hy Ha Hm. unfold sample_beta_safe. cbn [nleb nltb ndiv nadd nof NR NumR].
    destruct (rleb_spec 0 mv); [|lra]. destruct (rltb_spec 0 a); [|lra]. cbn [dassert obind].
    eexists. split; [reflexivity|]. pose proof (sample_beta_range x y u a b Hx Hy). unfold Rdiv.
    assert (0 < / (1 + mv)) by (apply Rinv_0_lt_compat; lra). split.
    - apply Rmult_le_compat_r; lra.
    - apply Rmult_le_reg_r with (1 + mv); [lra|]. rewrite Rmult_assoc, Rinv_l by lra. lra.
  Qed.
  Lemma sample_beta_value x y u a b : 0 <= x -> 0 <= y -> 0 < a -> 0 < b ->
    (0 < x + y -> sample_beta x y u a b * (x + y) = x) /\
    (x = 0 -> y = 0 ->
      0 < a / (a + b) < 1 /\
      (u < a / (a + b) -> sample_beta x y u a b = 1) /\
      (a / (a + b) <= u -> sample_beta x y u a b = 0)).
  Proof.
    intros Hx Hy Ha Hb. unfold sample_beta, iszero. cbn [nleb nltb ndiv nadd nof NR NumR]. split.
    - intros H. destruct (rleb_spec x 0), (rleb_spec 0 x), (rleb_spec y 0), (rleb_spec 0 y); cbn [andb]; try lra; field; lra.
    - intros -> ->. destruct (rleb_spec 0 0); [|lra]. cbn [andb].
      assert (0 < / (a + b)) by (apply Rinv_0_lt_compat; lra). split.
      + split; [apply Rdiv_lt_0_compat; lra|]. apply Rmult_lt_reg_r with (a + b); [lra|]. unfold Rdiv. rewrite Rmult_assoc, Rinv_l by lra. lra.
      + split; intros H0; destruct (rltb_spec u (a / (a + b))); try lra.
  Qed.
End R.

Lemma pair_distinct {T} (urn : list T) f1 f2 : f1 < length urn -> f2 < length urn - 1 ->
  exists a b p q, sample_pair_from_urn f1 f2 urn = Ok (a, b) /\ p <> q /\
    nth_error urn p = Some a /\ nth_error urn q = Some b.
Proof.
  intros H1 H2. destruct (pair_ok urn f1 f2 H1 H2) as (a & b & g & E & _ & _ & Hne & Ha & Hb).
  exists a, b, f1, g. auto.
Qed.
Lemma pair_unique {T} (urn : list T) a b : NoDup urn -> In a urn -> In b urn -> a <> b ->
  exists! f, (fst f < length urn /\ snd f < length urn - 1) /\ sample_pair_from_urn (fst f) (snd f) urn = Ok (a, b).
Proof.
  intros Hnd Ha Hb Hab. apply In_nth_error in Ha, Hb. destruct Ha as [p Hp]. destruct Hb as [q Hq].
  assert (Lp : p < length urn) by (apply nth_error_Some; congruence).
  assert (Lq : q < length urn) by (apply nth_error_Some; congruence).
  assert (Hpq : p <> q) by congruence.
  assert (HU : forall f, fst f < length urn -> snd f < length urn - 1 ->
    (sample_pair_from_urn (fst f) (snd f) urn = Ok (a, b) <-> pair_pos (fst f) (snd f) = (p, q))).
  { intros [f1 f2] H1 H2. cbn [fst snd] in *.
    destruct (pair_ok urn f1 f2 H1 H2) as (a' & b' & g & E & Eg & Lg & Hne & Ha' & Hb').
    unfold pair_pos. rewrite <- Eg, E. rewrite NoDup_nth_error in Hnd. split.
    - intros [= -> ->]. f_equal; apply Hnd; auto; congruence.
    - intros [= -> ->]. congruence. }
  destruct (pair_bij (length urn) p q ltac:(lia) Lp Lq Hpq) as (f & [[F1 F2] F3] & Hu).
  exists f. split.
  - split; [auto|]. apply HU; auto.
  - intros f' [[G1 G2] G3]. apply Hu. split; [auto|]. apply HU; auto.
Qed.

(** Zero weights. *)
Lemma cum_step l i p : nth_error l i = Some p -> (cum l (S i) = cum l i + p)%R.
Proof.
  revert i. induction l as [|x l IH]; intros [|i] H; simpl in H; try discriminate.
  - injection H as ->. unfold cum. simpl. lra.
  - rewrite !cum_S, (IH i H). lra.
Qed.
Lemma discrete_positive lg u ps i p : ps <> [] -> Forall (fun x => 0 <= x)%R ps -> rsum ps = 1%R -> (0 <= u < 1)%R ->
  sample_discrete (N := NumR lg) u ps = Ok i -> nth_error ps i = Some p -> (0 < p)%R.
Proof.
  intros H1 H2 H3 H4 E Hp. apply (discrete_cdf lg) in E; auto. destruct E as [_ E].
  rewrite (cum_step ps i p Hp) in E. lra.
Qed.
Lemma likelihoods_positive lg u ls i p : ls <> [] -> Forall (fun x => 0 <= x)%R ls -> (0 < rsum ls)%R -> (0 < u < 1)%R ->
  sample_from_likelihoods (N := NumR lg) u ls (rsum ls) = Ok i -> nth_error ls i = Some p -> (0 < p)%R.
Proof.
  intros H1 H2 H3 H4 E Hp. apply (likelihoods_cdf lg) in E; auto; [|lra]. destruct E as (Hi & E1 & E2).
  rewrite (cum_step ls i p Hp) in E2. assert (0 < rsum ls * u)%R by (apply Rmult_lt_0_compat; lra).
  destruct i as [|i].
  - unfold cum in E2. simpl in E2. lra.
  - specialize (E1 ltac:(lia)). lra.
Qed.
Lemma likelihoods_zero_chosen lg :
  sample_from_likelihoods (N := NumR lg) 0%R [0%R; 1%R] 1%R = Ok 0.
Proof.
  unfold sample_from_likelihoods. cbn [length Nat.ltb Nat.leb dassert obind likelihoods_loop].
  cbn [nleb nsub nmul nof NumR]. unfold rleb. destruct (Rle_dec (1 * 0 - 0) 0); [reflexivity|lra].
Qed.

Lemma urn_get {T} (urn : list T) i : i < length urn -> sample_from_urn i urn = vget urn i.
Proof.
  intro H. unfold sample_from_urn. replace (1 <=? length urn) with true by (symmetry; apply Nat.leb_le; lia).
  replace (i <? length urn) with true by (symmetry; apply Nat.ltb_lt; lia). reflexivity.
Qed.
Lemma urn_unique {T} (urn : list T) :
  (forall i, i < length urn -> exists a, sample_from_urn i urn = Ok a /\ In a urn) /\
  (forall a, List.NoDup urn -> In a urn -> exists! i, i < length urn /\ sample_from_urn i urn = Ok a).
Proof.
  split.
  - intros i H. rewrite urn_get by exact H. unfold vget. destruct (nth_error urn i) as [a|] eqn:E.
    + exists a. split; [reflexivity|]. now apply nth_error_In in E.
    + apply nth_error_None in E. lia.
  - intros a Hn Ha. apply In_nth_error in Ha as [i Hi]. assert (L : i < length urn) by (apply nth_error_Some; congruence).
    exists i. split.
    + split; [exact L|]. rewrite urn_get by exact L. unfold vget. now rewrite Hi.
    + intros j [Hj E]. rewrite urn_get in E by exact Hj. unfold vget in E. destruct (nth_error urn j) as [b|] eqn:Ej; [|discriminate].
      injection E as ->. apply (proj1 (NoDup_nth_error urn) Hn i j L). congruence.
Qed.
