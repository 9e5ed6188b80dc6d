(** Dirichlet-process shared: add_value, remove_value, realize, dump and load in exact arithmetic. *)
From Coq Require Import Permutation Reals Lra.
From Verif.spec Require Import GroupSpec GaussSpec SharedSpec.
From Verif.model Require Import Base Num NumR Component Slave Sparse DPD SharedRun.
From Verif.proof Require Import BaseProof GroupProof.
From stdpp Require Import gmap.
From Verif.proof Require Import MapSum DPDProof DPDScore.
Local Open Scope R_scope.

Definition MB : R := 1 / 1000000.

(** The shared counts the values [l]. *)
Record counts_values (sh : dpd_shared R) (l : list Z) : Prop := {
  cv_counts : dp_counts sh = dpd_stat l;
  cv_keys : forall v, dp_betas sh !! v <> None <-> In v l;
  cv_pos : positive_betas sh;
  cv_other : ~ In OTHER l;
  cv_short : short l }.

Lemma rltb_true x y : x < y -> rltb x y = true.
Proof. intro H. unfold rltb. destruct (Rlt_dec x y); [reflexivity|contradiction]. Qed.
Lemma rltb_false x y : y <= x -> rltb x y = false.
Proof. intro H. unfold rltb. destruct (Rlt_dec x y); [lra|reflexivity]. Qed.
Lemma rleb_true x y : x <= y -> rleb x y = true.
Proof. intro H. unfold rleb. destruct (Rle_dec x y); [reflexivity|contradiction]. Qed.
Lemma rleb_false x y : y < x -> rleb x y = false.
Proof. intro H. unfold rleb. destruct (Rle_dec x y); [lra|reflexivity]. Qed.
Lemma fmax_R lg a b : fmax (N:=NumR lg) a b = Rmax a b.
Proof. unfold fmax. cbn [nltb NumR]. unfold rltb, Rmax. destruct (Rlt_dec a b), (Rle_dec a b); lra. Qed.
Lemma fmin_R lg a b : fmin (N:=NumR lg) a b = Rmin a b.
Proof. unfold fmin. cbn [nltb NumR]. unfold rltb, Rmin. destruct (Rlt_dec b a), (Rle_dec a b); lra. Qed.

Section S.
  Variable lg : R -> R.
  #[local] Hint Extern 0 (Num R) => exact (NumR lg) : typeclass_instances.
  Variable dl : nat.
  Implicit Types (sh : dpd_shared R) (l : list Z).

  Lemma good_absent sh l v : counts_values sh l -> ~ In v l -> dp_betas sh !! v = None.
  Proof. intros H Hv. destruct (dp_betas sh !! v) eqn:E; [|reflexivity]. exfalso. apply Hv, (cv_keys _ _ H). congruence. Qed.
  Lemma zcount_absent l v : ~ In v l -> zcount l v = 0%Z.
  Proof. intro H. pose proof (zcount_nonneg l v). destruct (BinInt.Z.eq_dec (zcount l v) 0%Z); [assumption|]. exfalso. apply H, zcount_pos. lia. Qed.

  Lemma dps_add_old sh l v u : counts_values sh l -> In v l -> v <> OTHER -> short (v :: l) ->
    let sh' := mk_dpd_shared (dp_gamma sh) (dp_alpha sh) (dp_beta0 sh) (dp_betas sh) (dpd_stat (v :: l)) in
    dps_add dl sh v u = Ok sh' /\ counts_values sh' (v :: l).
  Proof.
    intros H Hv Ho Hs sh'. unfold dps_add. rewrite dassert_at_true by now rewrite (proj2 (Z.eqb_neq _ _) Ho).
    cbn [obind]. rewrite (cv_counts _ _ H).
    rewrite (dpd_ctr_add l v 1) with (l' := v :: l);
      [|lia|unfold short in *; cbn [length] in Hs; lia|unfold short in Hs; cbn [length] in Hs; lia|apply zcount_cons|cbn [length]; lia].
    cbn [obind fst snd]. apply zcount_pos in Hv as Hc. destruct (Z.eqb_spec (zcount l v + 1) 1); [lia|].
    split; [reflexivity|]. split; [reflexivity| |apply (cv_pos _ _ H)| |exact Hs].
    - intro w. cbn [sh' dp_betas]. rewrite (cv_keys _ _ H w). cbn [In]. split; [tauto|]. intros [<-|?]; assumption.
    - cbn [In]. pose proof (cv_other _ _ H). intros [?|?]; [congruence|contradiction].
  Qed.
  Lemma dps_add_new sh l v u : counts_values sh l -> ~ In v l -> v <> OTHER -> short (v :: l) -> 0 < dp_beta0 sh -> 0 < u ->
    let sh' := mk_dpd_shared (dp_gamma sh) (dp_alpha sh) (Rmax MB (dp_beta0 sh - dp_beta0 sh * u))
                 (<[ v := dp_beta0 sh * u ]> (dp_betas sh)) (dpd_stat (v :: l)) in
    dps_add dl sh v u = Ok sh' /\ counts_values sh' (v :: l) /\
    msum (fun _ b => b) (dp_betas sh') = msum (fun _ b => b) (dp_betas sh) + dp_beta0 sh * u.
  Proof.
    intros H Hv Ho Hs Hb Hu sh'. unfold dps_add. rewrite dassert_at_true by now rewrite (proj2 (Z.eqb_neq _ _) Ho).
    cbn [obind]. rewrite (cv_counts _ _ H).
    rewrite (dpd_ctr_add l v 1) with (l' := v :: l);
      [|lia|unfold short in *; cbn [length] in Hs; lia|unfold short in Hs; cbn [length] in Hs; lia|apply zcount_cons|cbn [length]; lia].
    cbn [obind fst snd]. rewrite (zcount_absent _ _ Hv). change (0 + 1 =? 1)%Z with true. cbn iota.
    cbn [nltb nof NumR]. rewrite rltb_true by exact Hb. cbn [dassert obind].
    pose proof (good_absent _ _ _ H Hv) as Ha. rewrite sp_add_fresh by exact Ha. cbn [obind]. rewrite fmax_R.
    split; [reflexivity|]. split.
    - split; [reflexivity| | | |exact Hs].
      + intro w. cbn [sh' dp_betas In]. destruct (BinInt.Z.eq_dec v w) as [->|Hne].
        * rewrite lookup_insert. split; [auto|discriminate].
        * rewrite lookup_insert_ne by assumption. rewrite (cv_keys _ _ H w). split; [tauto|]. intros [?|?]; [congruence|assumption].
      + intros w b. cbn [sh' dp_betas]. destruct (BinInt.Z.eq_dec v w) as [->|Hne].
        * rewrite lookup_insert. intro E; injection E as <-. now apply Rmult_lt_0_compat.
        * rewrite lookup_insert_ne by assumption. apply (cv_pos _ _ H).
      + cbn [In]. pose proof (cv_other _ _ H). intros [?|?]; [congruence|contradiction].
    - cbn [sh' dp_betas]. rewrite msum_insert by exact Ha. lra.
  Qed.
  Lemma counts_perm sh l l' : Permutation l l' -> counts_values sh l -> counts_values sh l'.
  Proof.
    intros P [A B C D E]. split; [now rewrite <- (dpd_stat_perm _ _ P)| |assumption| |unfold short in *; now rewrite <- (Permutation_length P)].
    - intro v. rewrite B. split; apply Permutation_in; [assumption|now apply Permutation_sym].
    - intro H. apply D. eapply Permutation_in; [apply Permutation_sym, P|exact H].
  Qed.
  Lemma dps_remove_ok sh l v : counts_values sh (v :: l) -> v <> OTHER -> 0 <= dp_beta0 sh ->
    exists sh', dps_remove dl sh v = Ok sh' /\ counts_values sh' l /\
      dp_gamma sh' = dp_gamma sh /\ dp_alpha sh' = dp_alpha sh /\
      ((In v l /\ dp_beta0 sh' = dp_beta0 sh /\ dp_betas sh' = dp_betas sh) \/
       (~ In v l /\ exists b, dp_betas sh !! v = Some b /\ dp_beta0 sh' = Rmin 1 (dp_beta0 sh + b) /\ dp_betas sh' = delete v (dp_betas sh))).
  Proof.
    intros H Ho Hb0. unfold dps_remove. rewrite dassert_at_true by now rewrite (proj2 (Z.eqb_neq _ _) Ho).
    cbn [obind]. rewrite (cv_counts _ _ H). unfold ctr_remove. pose proof (cv_short _ _ H) as Hs. unfold short in Hs; cbn [length] in Hs.
    rewrite (dpd_ctr_add (v :: l) v (-1)) with (l' := l); [|lia|unfold short; cbn [length]; lia|cbn [length]; lia| |cbn [length]; lia].
    2:{ intro k. rewrite !zcount_cons, Z.eqb_refl. destruct (Z.eqb_spec k v); subst; lia. }
    cbn [obind fst snd]. rewrite zcount_cons, Z.eqb_refl.
    assert (Hol : ~ In OTHER l) by (pose proof (cv_other _ _ H) as D; cbn [In] in D; tauto).
    destruct (In_dec BinInt.Z.eq_dec v l) as [Hv|Hv].
    - apply zcount_pos in Hv as Hc. destruct (Z.eqb_spec (zcount l v + 1 + -1) 0); [lia|].
      eexists. split; [reflexivity|]. cbn. split; [|split; [reflexivity|split; [reflexivity|left; auto]]].
      split; [reflexivity| |apply (cv_pos _ _ H)|exact Hol|unfold short; lia].
      intro w. cbn [dp_betas]. rewrite (cv_keys _ _ H w). cbn [In]. split; [intros [<-|?]; assumption|tauto].
    - rewrite (zcount_absent _ _ Hv). change (0 + 1 + -1 =? 0)%Z with true. cbn iota.
      destruct (dp_betas sh !! v) as [b|] eqn:Eb.
      2:{ exfalso. apply (proj2 (cv_keys _ _ H v)); [now left|exact Eb]. }
      unfold sp_pop, sp_find. rewrite Eb. cbn [obind fst snd]. rewrite fmin_R. eexists. split; [reflexivity|].
      cbn. split; [|split; [reflexivity|split; [reflexivity|right; split; [exact Hv|]]]].
      + split; [reflexivity| | |exact Hol|unfold short; lia].
        * intro w. cbn [dp_betas]. pose proof (cv_keys _ _ H w) as K. cbn [In] in K.
          destruct (BinInt.Z.eq_dec v w) as [->|Hne]; [rewrite lookup_delete; tauto|].
          rewrite lookup_delete_ne by assumption. rewrite K. split; [intros [?|?]; [congruence|assumption]|tauto].
        * intros w b'. cbn [dp_betas]. rewrite lookup_delete_Some. intros [_ E]. eapply (cv_pos _ _ H), E.
      + exists b. split; [reflexivity|]. split; [f_equal; lra|reflexivity].
  Qed.

  Definition bsum sh : R := msum (fun _ b => b) (dp_betas sh).
  Lemma bsum_nonneg sh : positive_betas sh -> 0 <= bsum sh.
  Proof. intro H. apply msum_nonneg. intros k b E. apply H in E. lra. Qed.
  Lemma MB_pos : 0 < MB. Proof. unfold MB. lra. Qed.

  (** Every history; add_value fails only when there is no mass left. *)
  Lemma run_mass ops : forall sh l l' n, counts_values sh l -> 0 <= dp_beta0 sh -> dhistory l ops l' n ->
    match dps_run dl sh ops with
    | Ok sh' => counts_values sh' l' /\ 0 <= dp_beta0 sh' /\ (0 < dp_beta0 sh -> 0 < dp_beta0 sh') /\
        dp_gamma sh' = dp_gamma sh /\ dp_alpha sh' = dp_alpha sh /\
        (1 <= dp_beta0 sh + bsum sh -> 1 <= dp_beta0 sh' + bsum sh') /\
        dp_beta0 sh' + bsum sh' <= dp_beta0 sh + bsum sh + INR n * MB
    | Fail => dp_beta0 sh = 0
    | UB => False
    end.
  Proof.
    induction ops as [|o ops IH]; intros sh l l' n H Hb Hh; inversion Hh; subst; cbn [dps_run dps_run1].
    - repeat (split; [first [reflexivity|assumption|auto]|]). cbn [INR]. lra.
    - match goal with Hin : In v l, Ho : v <> _, Hs : short _, Hr : dhistory _ _ _ _ |- _ =>
        destruct (dps_add_old sh l v u H Hin Ho Hs) as [E G]; rewrite E; cbn [obind];
        pose proof (IH _ _ _ _ G Hb Hr) as R end. exact R.
    - destruct (Rle_lt_or_eq_dec _ _ Hb) as [Hb'|Hb'].
      2:{ unfold dps_add. rewrite dassert_at_true by (apply negb_true_iff, Z.eqb_neq; assumption). cbn [obind].
          rewrite (cv_counts _ _ H).
          match goal with Hin : ~ In v l, Hs : short (v :: l) |- _ => unfold short in Hs; cbn [length] in Hs;
            rewrite (dpd_ctr_add l v 1) with (l' := v :: l); [|lia|unfold short; lia|lia|apply zcount_cons|cbn [length]; lia];
            cbn [obind fst snd]; rewrite (zcount_absent _ _ Hin) end.
          change (0 + 1 =? 1)%Z with true. cbn iota. cbn [nltb nof NumR]. rewrite rltb_false by lra. cbn. auto. }
      match goal with Hin : ~ In v l, Ho : v <> _, Hs : short _, Hu : _ < u <= _, Hr : dhistory _ _ _ _ |- _ =>
        destruct (dps_add_new sh l v u H Hin Ho Hs Hb' (proj1 Hu)) as (E & G & S); rewrite E; cbn [obind];
        pose proof (IH _ _ _ _ G (Rle_trans _ _ _ (Rlt_le _ _ MB_pos) (Rmax_l _ _)) Hr) as R;
        destruct Hu as [Hu0 Hu1] end.
      pose proof (Rmax_l MB (dp_beta0 sh - dp_beta0 sh * u)) as HM. pose proof MB_pos as HB.
      destruct (dps_run dl _ ops) as [sh'| |]; cbn [dp_beta0] in R; [|lra|contradiction].
      destruct R as (A & B & B' & C & D & M1 & M2).
      split; [exact A|]. split; [exact B|]. split; [intros _; apply B'; lra|]. split; [exact C|]. split; [exact D|].
      unfold bsum in *. rewrite S in M1, M2. cbn [dp_beta0] in M1, M2. rewrite S_INR.
      pose proof (Rmax_r MB (dp_beta0 sh - dp_beta0 sh * u)).
      assert (Rmax MB (dp_beta0 sh - dp_beta0 sh * u) <= MB + (dp_beta0 sh - dp_beta0 sh * u)).
      { apply Rmax_lub; [|lra]. assert (dp_beta0 sh * u <= dp_beta0 sh * 1) by (apply Rmult_le_compat_l; lra). lra. }
      split; [intro; apply M1; lra|lra].
    - assert (P : Permutation (l1 ++ v :: l2) (v :: l1 ++ l2)) by (apply Permutation_sym, Permutation_middle).
      destruct (dps_remove_ok sh (l1 ++ l2) v (counts_perm _ _ _ P H)) as (sh1 & E & G & C1 & D1 & K); [assumption|lra|].
      rewrite E. cbn [obind].
      assert (Hb1 : 0 <= dp_beta0 sh1 /\ (0 < dp_beta0 sh -> 0 < dp_beta0 sh1) /\ (dp_beta0 sh1 = 0 -> dp_beta0 sh = 0) /\
                    (1 <= dp_beta0 sh + bsum sh -> 1 <= dp_beta0 sh1 + bsum sh1) /\
                    dp_beta0 sh1 + bsum sh1 <= dp_beta0 sh + bsum sh).
      { unfold bsum. destruct K as [(_ & -> & ->)|(_ & b & Eb & -> & ->)]; [split; [exact Hb|split; [auto|split; [auto|split; [auto|lra]]]]|].
        pose proof (cv_pos _ _ H _ _ Eb) as Hpb. rewrite (msum_delete _ _ _ _ Eb).
        assert (0 <= msum (fun _ b => b) (delete v (dp_betas sh))).
        { apply msum_nonneg. intros k c Ek. apply lookup_delete_Some in Ek. destruct Ek as [_ Ek]. apply (cv_pos _ _ H) in Ek. lra. }
        unfold Rmin. destruct (Rle_dec 1 (dp_beta0 sh + b)); repeat split; lra. }
      destruct Hb1 as (Hb1 & Hb2 & Hb3 & M1 & M2).
      match goal with Hr : dhistory _ _ _ _ |- _ => pose proof (IH _ _ _ _ G Hb1 Hr) as R end.
      destruct (dps_run dl _ ops) as [sh'| |]; [|auto|contradiction].
      destruct R as (A & B & B' & C & D & M3 & M4).
      split; [exact A|]. split; [exact B|]. split; [auto|]. split; [congruence|]. split; [congruence|].
      split; [auto|lra].
  Qed.

  Lemma run_exact ops : forall sh l l' n sh', counts_values sh l -> 0 < dp_beta0 sh -> dhistory l ops l' n -> roomy dl sh ops ->
    dp_beta0 sh + bsum sh = 1 -> dps_run dl sh ops = Ok sh' -> dp_beta0 sh' + bsum sh' = 1.
  Proof.
    induction ops as [|o ops IH]; intros sh l l' n sh' H Hb Hh Hr Hm; inversion Hh; subst; cbn [dps_run]; cbn [roomy] in Hr; try destruct Hr as [Hr1 Hr2].
    - intro E; injection E as <-. exact Hm.
    - match goal with Hin : In v l, Ho : v <> _, Hs : short _, Hd : dhistory _ _ _ _ |- _ =>
        destruct (dps_add_old sh l v u H Hin Ho Hs) as [E G]; intro R; eapply (IH _ _ _ _ _ G Hb Hd) end;
        [apply Hr2; exact E|exact Hm|]. cbn [dps_run1] in R. rewrite E in R. exact R.
    - match goal with Hin : ~ In v l, Ho : v <> _, Hs : short _, Hu : _ < u <= _, Hd : dhistory _ _ _ _ |- _ =>
        destruct (dps_add_new sh l v u H Hin Ho Hs Hb (proj1 Hu)) as (E & G & S); specialize (Hr1 (good_absent _ _ _ H Hin));
        intro R; eapply (IH _ _ _ _ _ G (Rlt_le_trans _ _ _ MB_pos (Rmax_l _ _)) Hd) end.
      + apply Hr2; exact E.
      + unfold bsum. rewrite S. cbn [dp_beta0]. rewrite Rmax_right by (unfold MB; lra). unfold bsum in Hm. lra.
      + cbn [dps_run1] in R. rewrite E in R. exact R.
    - assert (P : Permutation (l1 ++ v :: l2) (v :: l1 ++ l2)) by (apply Permutation_sym, Permutation_middle).
      destruct (dps_remove_ok sh (l1 ++ l2) v (counts_perm _ _ _ P H)) as (sh1 & E & G & C1 & D1 & K); [assumption|lra|].
      assert (Hb1 : 0 < dp_beta0 sh1 /\ dp_beta0 sh1 + bsum sh1 = 1).
      { unfold bsum in *. destruct K as [(_ & -> & ->)|(_ & b & Eb & -> & ->)]; [split; [exact Hb|exact Hm]|].
        pose proof (cv_pos _ _ H _ _ Eb) as Hpb. rewrite (msum_delete _ _ _ _ Eb) in Hm.
        assert (0 <= msum (fun _ b => b) (delete v (dp_betas sh))).
        { apply msum_nonneg. intros k c Ek. apply lookup_delete_Some in Ek. destruct Ek as [_ Ek]. apply (cv_pos _ _ H) in Ek. lra. }
        unfold Rmin. destruct (Rle_dec 1 (dp_beta0 sh + b)); repeat split; lra. }
      destruct Hb1 as (Hb1 & M1). intro R.
      match goal with Hd : dhistory _ _ _ _ |- _ => eapply (IH _ _ _ _ _ G Hb1 Hd) end; [apply Hr2; exact E|exact M1|].
      cbn [dps_run1] in R. rewrite E in R. exact R.
  Qed.

  (** realize *)
  Notation sz sh := (Z.of_nat (size (dp_betas sh))).
  Lemma realize_loop us : forall sh l nv, counts_values sh l -> 0 < dp_beta0 sh -> List.Forall (fun u => 0 < u <= 1) us ->
    (forall v, In v l -> (v < nv)%Z) -> us <> [] ->
    (10000 <= sz sh + Z.of_nat (length us))%Z ->
    (0 <= nv)%Z -> (nv + Z.of_nat (length us) <= OTHER)%Z -> (Z.of_nat (length l) + Z.of_nat (length us) <= 2147483647)%Z ->
    exists sh' nv' us' news, dps_realize_loop dl sh nv us = Some (Ok (sh', nv', us')) /\
      us' <> [] /\ List.Forall (fun u => 0 < u <= 1) us' /\
      (nv' = nv + Z.of_nat (length news))%Z /\ (length news + length us' = length us)%nat /\
      counts_values sh' (news ++ l) /\ List.NoDup news /\ (forall v, In v news -> (nv <= v < nv')%Z) /\
      (forall v, (v < nv)%Z -> dp_betas sh' !! v = dp_betas sh !! v) /\
      0 < dp_beta0 sh' /\ dp_gamma sh' = dp_gamma sh /\ dp_alpha sh' = dp_alpha sh /\
      dp_beta0 sh + bsum sh <= dp_beta0 sh' + bsum sh' <= dp_beta0 sh + bsum sh + INR (length news) * MB /\
      sz sh' = (sz sh + Z.of_nat (length news))%Z /\ (sz sh' <= Z.max 9999 (sz sh))%Z.
  Proof.
    induction us as [|u us IH]; intros sh l nv H Hb Hu Hnv Hne Hf Hn0 Ho Hs; [congruence|]. cbn [dps_realize_loop].
    destruct (Z.ltb_spec (sz sh) (dps_max_size - 1)) as [Hsz|Hsz]; cbn [andb].
    1: destruct (nltb dps_min_beta0 (dp_beta0 sh)) eqn:Hlt.
    2,3: exists sh, nv, (u :: us), []; split; [reflexivity|]; split; [discriminate|]; split; [assumption|];
         cbn [length app INR]; split; [lia|]; split; [lia|]; split; [assumption|]; split; [constructor|]; split; [intros v []|];
         split; [reflexivity|]; split; [exact Hb|]; split; [reflexivity|]; split; [reflexivity|]; split; [lra|]; split; [lia|lia].
    unfold dps_max_size in Hsz. cbn [length] in Hf, Ho, Hs. inversion Hu as [|? ? Hu1 Hu2]; subst.
    assert (Hno : nv <> OTHER) by lia.
    assert (Hni : ~ In nv l) by (intro Hin; apply Hnv in Hin; lia).
    assert (Hsh : short (nv :: l)) by (unfold short; cbn [length]; lia).
    destruct (dps_add_new sh l nv u H Hni Hno Hsh Hb (proj1 Hu1)) as (E & G & S). rewrite E.
    rewrite u32_small by (unfold OTHER in Ho; lia).
    match type of G with counts_values ?x _ => set (sh1 := x) in * end.
    assert (Hb1 : 0 < dp_beta0 sh1) by exact (Rlt_le_trans _ _ _ MB_pos (Rmax_l _ _)).
    assert (Hsz1 : sz sh1 = (sz sh + 1)%Z).
    { cbn [sh1 dp_betas]. rewrite map_size_insert_None by (eapply good_absent; eauto). lia. }
    destruct (IH sh1 (nv :: l) (nv + 1)%Z G Hb1 Hu2) as (sh' & nv' & us' & news & E' & A1 & A2 & A3 & A4 & A5 & A6 & A7 & A8 & A9 & A10 & A11 & A12 & A13 & A14).
    { intros v [<-|Hin]; [lia|]. apply Hnv in Hin. lia. }
    { intros ->. cbn [length] in Hf. lia. }
    { lia. } { lia. } { lia. } { cbn [length]. lia. }
    exists sh', nv', us', (news ++ [nv])%list. split; [exact E'|]. split; [exact A1|]. split; [exact A2|].
    rewrite app_length. cbn [length]. split; [lia|]. split; [lia|]. split; [rewrite <- app_assoc; exact A5|].
    split. { apply NoDup_ListNoDup, NoDup_app. split; [now apply NoDup_ListNoDup|]. split; [|apply NoDup_singleton].
             intros v Hin Hin'. apply elem_of_list_In in Hin. apply elem_of_list_singleton in Hin'. subst v. apply A7 in Hin. lia. }
    split. { intros v Hin. apply in_app_iff in Hin. destruct Hin as [Hin|[<-|[]]]; [apply A7 in Hin; lia|lia]. }
    split. { intros v Hv. rewrite A8 by lia. cbn [sh1 dp_betas]. apply lookup_insert_ne. lia. }
    split; [exact A9|]. split; [exact A10|]. split; [exact A11|]. split; [|lia].
    unfold bsum in *. cbn [sh1 dp_beta0] in A12. rewrite S in A12. rewrite plus_INR. cbn [INR].
    pose proof (Rmax_l MB (dp_beta0 sh - dp_beta0 sh * u)). pose proof (Rmax_r MB (dp_beta0 sh - dp_beta0 sh * u)).
    assert (Rmax MB (dp_beta0 sh - dp_beta0 sh * u) <= MB + (dp_beta0 sh - dp_beta0 sh * u)).
    { pose proof MB_pos. apply Rmax_lub; [|lra]. assert (dp_beta0 sh * u <= dp_beta0 sh * 1) by (apply Rmult_le_compat_l; lra). lra. }
    lra.
  Qed.

  Lemma new_value_bound (betas : gmap Z R) B : (0 <= B < 4294967296)%Z -> (forall v, betas !! v <> None -> (0 <= v < B)%Z) ->
    (0 <= dps_new_value betas <= B)%Z /\ forall v, betas !! v <> None -> (v < dps_new_value betas)%Z.
  Proof.
    intros HB Hv. unfold dps_new_value.
    assert (Hl : forall k b, In (k, b) (map_to_list betas) -> (0 <= k < B)%Z).
    { intros k b Hin. apply (in_order betas _ _ _ (Permutation_refl _)) in Hin. apply Hv. congruence. }
    assert (Hk : forall v, betas !! v <> None -> In v (map fst (map_to_list betas))).
    { intros v Hin. now apply (in_keys betas _ _ (Permutation_refl _)). }
    assert (K : (0 <= fold_right (fun kv acc => Z.max acc (u32 (1 + kv.1))) 0 (map_to_list betas) <= B)%Z /\
                forall v, In v (map fst (map_to_list betas)) -> (v < fold_right (fun kv acc => Z.max acc (u32 (1 + kv.1))) 0 (map_to_list betas))%Z).
    { clear Hk. induction (map_to_list betas) as [|[k b] m IH]; cbn [fold_right map fst In]; [split; [lia|intros v []]|].
      destruct IH as [I1 I2]; [intros; eapply Hl; right; eauto|].
      specialize (Hl k b (or_introl eq_refl)). rewrite u32_small by lia. split; [lia|].
      intros v [<-|Hin]; [lia|]. apply I2 in Hin. lia. }
    destruct K as [K1 K2]. split; [exact K1|]. auto.
  Qed.

  Lemma realize_loop_length us : forall sh nv a b us', dps_realize_loop dl sh nv us = Some (Ok (a, b, us')) -> (length us' <= length us)%nat.
  Proof.
    induction us as [|u us IH]; intros sh nv a b us'; cbn [dps_realize_loop length].
    - destruct (_ && _)%bool; [discriminate|]. intro E. injection E as <- <- <-. cbn [length]. lia.
    - destruct (_ && _)%bool; [|intro E; injection E as <- <- <-; cbn [length]; lia].
      destruct (dps_add dl sh nv u); try discriminate. intro E. apply IH in E. lia.
  Qed.
  (** The loop runs exactly when there is room and more than 10^-4 is left. *)
  Lemma realize_loop_runs us sh nv a b us' : dps_realize_loop dl sh nv us = Some (Ok (a, b, us')) ->
    (length us' = length us <-> dp_beta0 sh <= / 10000 \/ (9999 <= sz sh)%Z).
  Proof.
    assert (K : (sz sh <? dps_max_size - 1)%Z && (dps_min_beta0 <? dp_beta0 sh)%num = true <-> ~ (dp_beta0 sh <= / 10000 \/ (9999 <= sz sh)%Z)).
    { rewrite andb_true_iff, Z.ltb_lt. unfold dps_max_size, dps_min_beta0. cbn [nltb nlit NumR].
      destruct (Rlt_dec (1 / 10000) (dp_beta0 sh)) as [Hl|Hl].
      - rewrite rltb_true by exact Hl. split; [intros [A _] [B|B]; [lra|lia]|intro H; split; [|reflexivity]].
        destruct (Z_lt_le_dec (sz sh) 9999); [lia|]. exfalso. apply H. now right.
      - rewrite rltb_false by lra. split; [intros [_ A]; discriminate|intro H; exfalso; apply H; left; lra]. }
    destruct us as [|u us]; cbn [dps_realize_loop].
    - destruct (_ && _)%bool; [discriminate|]. intro E. injection E as <- <- <-. split; [intros _|reflexivity].
      destruct (Rle_dec (dp_beta0 sh) (/ 10000)) as [|N1]; [now left|]. destruct (Z_le_gt_dec 9999 (sz sh)) as [|N2]; [now right|].
      exfalso. assert (X : false = true) by (apply K; intros [A|A]; [contradiction|lia]). discriminate.
    - destruct (_ && _)%bool.
      + destruct (dps_add dl sh nv u); try discriminate. intro E. apply realize_loop_length in E. cbn [length].
        split; [lia|]. intro H. exfalso. now apply (proj1 K eq_refl).
      + intro E. injection E as <- <- <-. split; [intros _|reflexivity].
        destruct (Rle_dec (dp_beta0 sh) (/ 10000)) as [|N1]; [now left|]. destruct (Z_le_gt_dec 9999 (sz sh)) as [|N2]; [now right|].
        exfalso. assert (X : false = true) by (apply K; intros [A|A]; [contradiction|lia]). discriminate.
  Qed.

  Lemma realize_ok sh l us : counts_values sh l -> 0 <= dp_beta0 sh -> List.Forall (fun u => 0 < u <= 1) us ->
    us <> [] -> (10000 <= sz sh + Z.of_nat (length us))%Z ->
    (forall v, In v l -> 0 <= v /\ v + 1 + Z.of_nat (length us) <= OTHER)%Z ->
    (Z.of_nat (length l) + Z.of_nat (length us) <= 2147483647)%Z ->
    exists sh' news, dps_realize dl sh us = Some (Ok sh') /\
      dp_beta0 sh' = 0 /\ dp_gamma sh' = dp_gamma sh /\ dp_alpha sh' = dp_alpha sh /\
      counts_values sh' (news ++ l) /\ List.NoDup news /\ (forall v, In v news -> ~ In v l) /\
      (forall v, In v l -> dp_betas sh' !! v = dp_betas sh !! v) /\
      dp_beta0 sh + bsum sh <= bsum sh' <= dp_beta0 sh + bsum sh + INR (length news) * MB /\
      sz sh' = (sz sh + Z.of_nat (length news))%Z /\ (0 < dp_beta0 sh -> news <> []) /\ (sz sh' <= Z.max 10000 (sz sh + 1))%Z /\
      (0 < dp_beta0 sh -> (length news = 1%nat <-> dp_beta0 sh <= / 10000 \/ (9999 <= sz sh)%Z)).
  Proof.
    intros H Hb Hu Hne Hf Hv Hs. unfold dps_realize.
    assert (HB : exists B, (0 <= B)%Z /\ (B + Z.of_nat (length us) <= OTHER)%Z /\ forall v, In v l -> (0 <= v < B)%Z).
    { exists (OTHER - Z.of_nat (length us))%Z. split; [unfold OTHER; lia|]. split; [lia|]. intros v Hin. apply Hv in Hin. lia. }
    destruct HB as (B & HB0 & HB1 & HB2). unfold OTHER in HB1.
    destruct (new_value_bound (dp_betas sh) B) as [Hnv1 Hnv2]; [lia|intros v Hin; apply HB2, (cv_keys _ _ H), Hin|].
    set (nv := dps_new_value (dp_betas sh)) in *.
    destruct (Rle_lt_or_eq_dec _ _ Hb) as [Hb'|Hb'].
    - destruct (realize_loop us sh l nv H Hb' Hu) as (sh1 & nv1 & us1 & news & E & A1 & A2 & A3 & A4 & A5 & A6 & A7 & A8 & A9 & A10 & A11 & A12 & A13 & A14);
        [intros v Hin; apply Hnv2, (cv_keys _ _ H), Hin|exact Hne|exact Hf|lia|unfold OTHER; lia|exact Hs|].
      pose proof (realize_loop_runs _ _ _ _ _ _ E) as HR.
      rewrite E. unfold dps_realize_end. cbn [nltb nof NumR]. rewrite rltb_true by exact A9.
      destruct us1 as [|u us1]; [congruence|]. inversion A2 as [|? ? Hu1 Hu2]; subst. cbn [length] in A4.
      assert (Hni : ~ In (nv + Z.of_nat (length news))%Z (news ++ l)).
      { intro Hin. apply in_app_iff in Hin. destruct Hin as [Hin|Hin]; [apply A7 in Hin; lia|].
        apply (cv_keys _ _ H) in Hin. apply Hnv2 in Hin. lia. }
      assert (Hno : (nv + Z.of_nat (length news))%Z <> OTHER) by (unfold OTHER; lia).
      assert (Hsh : short ((nv + Z.of_nat (length news))%Z :: news ++ l)) by (unfold short; cbn [length]; rewrite app_length; lia).
      destruct (dps_add_new sh1 (news ++ l) _ u A5 Hni Hno Hsh A9 (proj1 Hu1)) as (E1 & G & S). rewrite E1. cbn [obind].
      match type of G with counts_values ?x _ => set (sh2 := x) in * end.
      set (nv2 := (nv + Z.of_nat (length news))%Z) in *.
      assert (E2 : dp_betas sh2 !! nv2 = Some (dp_beta0 sh1 * u)) by apply lookup_insert.
      rewrite (sp_get_some _ _ _ _ E2). cbn [obind].
      pose proof (Rmax_l MB (dp_beta0 sh1 - dp_beta0 sh1 * u)) as L1. pose proof (Rmax_r MB (dp_beta0 sh1 - dp_beta0 sh1 * u)) as L2.
      assert (L3 : Rmax MB (dp_beta0 sh1 - dp_beta0 sh1 * u) <= MB + (dp_beta0 sh1 - dp_beta0 sh1 * u)).
      { pose proof MB_pos. apply Rmax_lub; [|lra]. assert (dp_beta0 sh1 * u <= dp_beta0 sh1 * 1) by (apply Rmult_le_compat_l; lra). lra. }
      pose proof MB_pos as HMB.
      eexists _, (nv2 :: news). split; [reflexivity|]. cbn [dp_beta0 dp_gamma dp_alpha].
      split; [reflexivity|]. split; [exact A10|]. split; [exact A11|]. split; [|split; [|split; [|split; [|split; [|split; [|split]]]]]].
      + destruct G as [G1 G2 G3 G4 G5]. split; [exact G1| | |exact G4|exact G5].
        * intro v. cbn [dp_betas]. rewrite <- G2. destruct (BinInt.Z.eq_dec nv2 v) as [<-|Hn].
          -- rewrite lookup_insert, E2. split; discriminate. -- now rewrite lookup_insert_ne by exact Hn.
        * intros v b. cbn [dp_betas]. destruct (BinInt.Z.eq_dec nv2 v) as [<-|Hn].
          -- rewrite lookup_insert. intro X; injection X as <-. cbn [nadd NumR sh2 dp_beta0].
             assert (0 < dp_beta0 sh1 * u) by (apply Rmult_lt_0_compat; [exact A9|apply Hu1]). lra.
          -- rewrite lookup_insert_ne by exact Hn. apply G3.
      + constructor; [|exact A6]. intro Hin. apply A7 in Hin. lia.
      + intros v [<-|Hin] Hl; [apply Hni, in_app_iff; now right|]. apply (cv_keys _ _ H) in Hl. apply Hnv2 in Hl. apply A7 in Hin. lia.
      + intros v Hl. apply (cv_keys _ _ H) in Hl. apply Hnv2 in Hl. cbn [dp_betas]. rewrite lookup_insert_ne by (unfold nv2; lia).
        cbn [sh2 dp_betas]. rewrite lookup_insert_ne by (unfold nv2; lia). now apply A8.
      + unfold bsum in *. cbn [dp_betas]. rewrite (msum_update _ _ _ _ _ E2). fold nv2 in S. rewrite S.
        cbn [nadd NumR sh2 dp_beta0]. cbn [length]. rewrite S_INR. lra.
      + cbn [dp_betas sh2]. rewrite insert_insert. rewrite map_size_insert_None by (eapply good_absent; eauto).
        cbn [length]. lia.
      + intros _. discriminate.
      + split; [cbn [dp_betas sh2]; rewrite insert_insert; rewrite map_size_insert_None by (eapply good_absent; eauto); lia|].
        intros _. rewrite <- HR. cbn [length] in *. lia.
    - destruct us as [|u us]; [congruence|]. cbn [dps_realize_loop].
      cbn [nltb NumR]. rewrite (rltb_false dps_min_beta0) by (rewrite <- Hb'; unfold dps_min_beta0; cbn [nlit NumR]; lra).
      rewrite andb_false_r. unfold dps_realize_end. cbn [nltb nof NumR]. rewrite rltb_false by lra.
      exists sh, []. cbn [app length INR]. split; [reflexivity|]. split; [auto|]. split; [reflexivity|]. split; [reflexivity|].
      split; [exact H|]. split; [constructor|]. split; [intros v []|]. split; [reflexivity|]. split; [lra|]. split; [lia|]. split; [lra|]. split; [lia|lra].
  Qed.

  Lemma realize_loop_more us more : forall sh nv r, dps_realize_loop dl sh nv us = Some r ->
    dps_realize_loop dl sh nv (us ++ more) = Some (match r with Ok (a, b, c) => Ok (a, b, c ++ more) | Fail => Fail | UB => UB end).
  Proof.
    induction us as [|u us IH]; intros sh nv r; cbn [dps_realize_loop app].
    - destruct more; cbn [dps_realize_loop]; destruct (_ && _)%bool; try discriminate; intro E; injection E as <-; reflexivity.
    - destruct (_ && _)%bool; [|intro E; injection E as <-; reflexivity].
      destruct (dps_add dl sh nv u); [apply IH| |]; intro E; injection E as <-; reflexivity.
  Qed.
  Lemma realize_more us more sh r : dps_realize dl sh us = Some r -> dps_realize dl sh (us ++ more) = Some r.
  Proof.
    unfold dps_realize. destruct (dps_realize_loop dl sh (dps_new_value (dp_betas sh)) us) as [r'|] eqn:E; [|discriminate].
    rewrite (realize_loop_more _ more _ _ _ E). destruct r' as [[[a b] c]| |]; auto.
    unfold dps_realize_end. destruct (nltb _ _); [|auto]. destruct c; [discriminate|auto].
  Qed.

  (** protobuf_load *)
  Notation wf_msg m l := (good_message (dm_values m) (dm_betas m) (dm_counts m) l).

  Lemma as_int_small c : (0 <= c <= 2147483647)%Z -> as_int c = c.
  Proof. intro H. unfold as_int. rewrite Z.mod_small by lia. unfold i32_max. destruct (Z.leb_spec c 2147483647); lia. Qed.

  Lemma load_loop vs : forall bs cs betas l sum,
    length bs = length vs -> length cs = length vs -> List.NoDup vs -> ~ In OTHER vs ->
    List.Forall (fun b => 0 < b) bs -> List.Forall (fun c => (1 <= c)%Z) cs ->
    (forall v, In v vs -> betas !! v = None) ->
    let l' := (msg_values vs cs ++ l)%list in short l' ->
    exists betas' sum', dps_load_loop dl vs bs cs betas (dpd_stat l) sum = Ok (betas', dpd_stat l', sum') /\
      sum' = sum + rsum bs /\ msum (fun _ b => b) betas' = msum (fun _ b => b) betas + rsum bs /\
      (forall v b, In (v, b) (combine vs bs) -> betas' !! v = Some b) /\ (forall v, ~ In v vs -> betas' !! v = betas !! v).
  Proof.
    induction vs as [|v vs IH]; intros [|b bs] [|c cs] betas l sum; try discriminate; intros Lb Lc Hn Ho Hb Hc Ha l' Hs.
    - exists betas, sum. cbn [dps_load_loop rsum combine]. split; [reflexivity|]. split; [lra|]. split; [lra|]. split; [intros v b []|reflexivity].
    - cbn [dps_load_loop]. apply NoDup_cons_iff in Hn as [Hn1 Hn2]. inversion Hb as [|? ? Hb1 Hb2]; subst. inversion Hc as [|? ? Hc1 Hc2]; subst.
      cbn [nltb nof NumR]. rewrite rltb_true by exact Hb1. cbn [dassert obind].
      assert (Hav : betas !! v = None) by (apply Ha; now left).
      rewrite sp_add_fresh by exact Hav. cbn [obind].
      assert (Hlen : (c + Z.of_nat (length (msg_values vs cs)) + Z.of_nat (length l) <= 2147483647)%Z).
      { unfold short, l' in Hs. cbn [msg_values] in Hs. rewrite !app_length, repeat_length in Hs. lia. }
      rewrite as_int_small by lia.
      rewrite (dpd_ctr_add l v c) with (l' := (repeat v (Z.to_nat c) ++ l)%list);
        [|lia|unfold short; lia|lia| |rewrite app_length, repeat_length; lia].
      2:{ intro k. rewrite zcount_app, zcount_repeat. destruct (Z.eqb_spec k v); subst; lia. }
      cbn [obind fst].
      assert (Hp : Permutation (msg_values vs cs ++ repeat v (Z.to_nat c) ++ l) l').
      { unfold l'. cbn [msg_values]. rewrite <- app_assoc. rewrite !app_assoc. apply Permutation_app_tail, Permutation_app_comm. }
      destruct (IH bs cs (<[ v := b ]> betas) (repeat v (Z.to_nat c) ++ l)%list (sum + b)%R) as (betas' & sum' & E & A1 & A2 & A3 & A4).
      + cbn [length] in Lb. lia. + cbn [length] in Lc. lia. + exact Hn2. + intro X. apply Ho. now right. + exact Hb2. + exact Hc2.
      + intros w Hw. rewrite lookup_insert_ne by (intros ->; contradiction). apply Ha. now right.
      + unfold short in *. now rewrite (Permutation_length Hp).
      + exists betas', sum'. split; [rewrite <- (dpd_stat_perm _ _ Hp); exact E|]. cbn [rsum]. split; [lra|].
        rewrite msum_insert in A2 by exact Hav. split; [lra|]. split.
        * intros w b' [X|Hin]; [injection X as <- <-|now apply A3]. rewrite A4 by exact Hn1. apply lookup_insert.
        * intros w Hw. rewrite A4 by (intro; apply Hw; now right). apply lookup_insert_ne. intros ->. apply Hw. now left.
  Qed.
  Lemma in_combine_l_exists {A B} (vs : list A) (bs : list B) v : length bs = length vs -> In v vs -> exists b, In (v, b) (combine vs bs).
  Proof.
    revert bs. induction vs as [|w vs IH]; intros [|b bs] L; try discriminate; cbn [In combine]; [tauto|].
    intros [->|Hin]; [exists b; now left|]. destruct (IH bs) as [b' Hb]; [cbn [length] in L; lia|exact Hin|]. exists b'. now right.
  Qed.
  Lemma in_msg_values v vs : forall cs, length cs = length vs -> List.Forall (fun c => (1 <= c)%Z) cs -> In v (msg_values vs cs) <-> In v vs.
  Proof.
    induction vs as [|w vs IH]; intros [|c cs] L Hc; try discriminate; cbn [msg_values In]; [tauto|].
    inversion Hc; subst. rewrite in_app_iff, (IH cs) by (first [assumption|cbn [length] in L; lia]).
    split; [intros [Hin|?]; [left; symmetry; eapply repeat_spec, Hin|tauto]|].
    intros [->|?]; [left|tauto]. destruct (Z.to_nat c) eqn:E; [lia|now left].
  Qed.
  Lemma load_ok m l : wf_msg m l ->
    (rsum (dm_betas m) <= 1 + / 10000 ->
     exists sh, dps_load dl m = Ok sh /\ counts_values sh l /\ dp_gamma sh = dm_gamma m /\ dp_alpha sh = dm_alpha m /\
       dp_beta0 sh = Rmax 0 (1 - rsum (dm_betas m)) /\ bsum sh = rsum (dm_betas m) /\
       (forall v b, In (v, b) (combine (dm_values m) (dm_betas m)) -> dp_betas sh !! v = Some b) /\
       (forall v, ~ In v (dm_values m) -> dp_betas sh !! v = None)) /\
    (1 + / 10000 < rsum (dm_betas m) -> dps_load dl m = Fail).
  Proof.
    intros [L1 L2 Hn Ho Hb Hc Hd Hs]. unfold dps_load.
    rewrite (proj2 (Nat.eqb_eq _ _) L1), (proj2 (Nat.eqb_eq _ _) L2). cbn [dassert obind].
    destruct (load_loop (dm_values m) (dm_betas m) (dm_counts m) ∅ [] 0%R L1 L2 Hn Ho Hb Hc) as (betas & sum & E & A1 & A2 & A3 & A4).
    { intros v _. apply lookup_empty. } { rewrite app_nil_r. now rewrite <- Hd. }
    rewrite app_nil_r, <- Hd in E. rewrite msum_empty in A2. change (mk_counter ∅ (Some 0%Z)) with (dpd_stat []).
    change (nof 0) with 0 in *. rewrite E. cbn [obind].
    assert (Esum : sum = rsum (dm_betas m)) by lra.
    assert (Elit : (nlit 1 1 + nlit 1 10000)%num = 1 + / 10000) by (cbn [nlit nadd NumR]; lra).
    rewrite Elit, Esum. cbn [nleb NumR]. split; intro Hsum.
    - rewrite rleb_true by exact Hsum. cbn [dassert obind]. eexists. split; [reflexivity|]. cbn [dp_gamma dp_alpha dp_beta0].
      assert (Hk : forall v, betas !! v <> None <-> In v (dm_values m)).
      { intro v. split.
        - intro X. destruct (In_dec BinInt.Z.eq_dec v (dm_values m)) as [|Hv]; [assumption|]. rewrite (A4 v Hv), lookup_empty in X. congruence.
        - intro X. destruct (in_combine_l_exists _ (dm_betas m) v L1 X) as [b Hin]. rewrite (A3 _ _ Hin). discriminate. }
      split; [split|].
      + reflexivity.
      + intro v. cbn [dp_betas]. rewrite Hk, Hd. symmetry. now apply in_msg_values.
      + intros v b. cbn [dp_betas]. intro X. assert (Hv : In v (dm_values m)) by (apply Hk; congruence).
        destruct (in_combine_l_exists _ (dm_betas m) v L1 Hv) as [b' Hin]. pose proof (A3 _ _ Hin) as Y. rewrite X in Y. injection Y as <-.
        apply in_combine_r in Hin. rewrite List.Forall_forall in Hb. auto.
      + rewrite Hd. rewrite in_msg_values by assumption. exact Ho.
      + exact Hs.
      + split; [reflexivity|]. split; [reflexivity|]. split; [rewrite fmax_R; cbn [nsub nlit NumR]; f_equal; lra|].
        split; [unfold bsum; cbn [dp_betas]; lra|]. split; [exact A3|]. intros v Hv. cbn [dp_betas]. rewrite A4 by exact Hv. apply lookup_empty.
    - rewrite rleb_false by exact Hsum. reflexivity.
  Qed.

  (** protobuf_dump *)
  Lemma dump_wf sh l order : counts_values sh l -> Permutation order (map_to_list (dp_betas sh)) ->
    exists l', Permutation l' l /\ wf_msg (dps_dump sh order) l' /\ rsum (dm_betas (dps_dump sh order)) = bsum sh.
  Proof.
    intros H P. pose proof (cv_short _ _ H) as Hs. unfold short in Hs.
    assert (Hc : forall v, ctr_get_count (dp_counts sh) v = zcount l v) by (intro v; rewrite (cv_counts _ _ H); apply dmap_get).
    assert (Hcnt : forall v, as_size (ctr_get_count (dp_counts sh) v) = zcount l v).
    { intro v. rewrite Hc. apply as_size_small. pose proof (zcount_nonneg l v). pose proof (zcount_le l v). lia. }
    assert (Ekeys : forall k, In k (map fst order) <-> In k l).
    { intro k. rewrite (in_keys _ _ _ P). apply (cv_keys _ _ H). }
    set (l' := msg_values (map fst order) (map (fun kv : Z * R => as_size (ctr_get_count (dp_counts sh) kv.1)) order)).
    assert (HP : Permutation l' l).
    { apply (Permutation_count_occ BinInt.Z.eq_dec). intro k.
      assert (G : forall o, List.NoDup (map fst o) ->
                zcount (msg_values (map fst o) (map (fun kv : Z * R => as_size (ctr_get_count (dp_counts sh) kv.1)) o)) k =
                if In_dec BinInt.Z.eq_dec k (map fst o) then zcount l k else 0%Z).
      { induction o as [|[v b] o IH]; intro Hn; cbn [map fst msg_values]; [reflexivity|].
        cbn [map fst] in Hn. apply NoDup_cons_iff in Hn as [Hn1 Hn2]. rewrite zcount_app, zcount_repeat, (IH Hn2), Hcnt. cbn [fst].
        pose proof (zcount_nonneg l v).
        destruct (Z.eqb_spec k v) as [->|Hne].
        - destruct (In_dec BinInt.Z.eq_dec v (map fst o)); [contradiction|]. destruct (In_dec BinInt.Z.eq_dec v (v :: map fst o)) as [|X]; [lia|]. exfalso. apply X. now left.
        - destruct (In_dec BinInt.Z.eq_dec k (map fst o)) as [X|X], (In_dec BinInt.Z.eq_dec k (v :: map fst o)) as [Y|Y]; try lia.
          + exfalso. apply Y. now right. + exfalso. destruct Y; [congruence|contradiction]. }
      specialize (G order (nodup_keys _ _ P)). unfold zcount at 1 in G. fold l' in G.
      destruct (In_dec BinInt.Z.eq_dec k (map fst order)) as [Hk|Hk].
      - unfold zcount in G. lia.
      - rewrite Ekeys in Hk. apply zcount_absent in Hk. unfold zcount in Hk. lia. }
    exists l'. split; [exact HP|]. split; [split|].
    - cbn [dps_dump dm_betas dm_values]. now rewrite !map_length.
    - cbn [dps_dump dm_counts dm_values]. now rewrite !map_length.
    - apply (nodup_keys _ _ P).
    - cbn [dps_dump dm_values]. rewrite Ekeys. apply (cv_other _ _ H).
    - cbn [dps_dump dm_betas]. rewrite List.Forall_forall. intros b Hin. apply in_map_iff in Hin. destruct Hin as ([v b'] & <- & Hin).
      apply (in_order _ _ _ _ P) in Hin. eapply (cv_pos _ _ H), Hin.
    - cbn [dps_dump dm_counts]. rewrite List.Forall_forall. intros c Hin. apply in_map_iff in Hin. destruct Hin as ([v b'] & <- & Hin).
      rewrite Hcnt. cbn [fst]. assert (In v l) as Hv by (apply Ekeys; apply in_map_iff; exists (v, b'); auto). apply zcount_pos in Hv. lia.
    - reflexivity.
    - unfold short. now rewrite (Permutation_length HP).
    - cbn [dps_dump dm_betas]. unfold bsum. rewrite <- (msum_order _ _ _ P). reflexivity.
  Qed.
  Lemma dump_load sh l order : counts_values sh l -> Permutation order (map_to_list (dp_betas sh)) ->
    (bsum sh <= 1 + / 10000 ->
      dps_load dl (dps_dump sh order) = Ok (mk_dpd_shared (dp_gamma sh) (dp_alpha sh) (Rmax 0 (1 - bsum sh)) (dp_betas sh) (dp_counts sh))) /\
    (1 + / 10000 < bsum sh -> dps_load dl (dps_dump sh order) = Fail).
  Proof.
    intros H P. destruct (dump_wf sh l order H P) as (l' & HP & Hwf & Es). destruct (load_ok _ _ Hwf) as [A B]. rewrite Es in A, B.
    split; [|exact B]. intro Hs. destruct (A Hs) as (sh' & E & G & G1 & G2 & G3 & G4 & G5 & G6). rewrite E. f_equal.
    destruct sh' as [ga al b0 bs cs]. cbn [dp_gamma dp_alpha dp_beta0 dp_betas dp_counts] in *. f_equal; [exact G1|exact G2|exact G3| |].
    - apply map_eq. intro v. destruct (dp_betas sh !! v) as [b|] eqn:Eb.
      + apply G5. cbn [dps_dump dm_values dm_betas]. assert (Hin : In (v, b) order) by now apply (in_order _ _ _ _ P).
        clear -Hin. induction order as [|[w c] order IH]; [destruct Hin|]. cbn [map combine fst snd]. destruct Hin as [E|Hin]; [now left|right; now apply IH].
      + apply G6. cbn [dps_dump dm_values]. rewrite (in_keys _ _ _ P). congruence.
    - rewrite (cv_counts _ _ H). pose proof (cv_counts _ _ G) as X. cbn [dp_counts] in X. rewrite X. now apply dpd_stat_perm.
  Qed.

  (** Adding new values when only MIN_BETA is left. *)
  Lemma run_ones vs : forall sh l, counts_values sh l -> dp_beta0 sh = MB -> List.NoDup vs ->
    (forall v, In v vs -> ~ In v l /\ v <> OTHER) -> short (vs ++ l) ->
    exists sh', dps_run dl sh (map (fun v => DAdd v 1) vs) = Ok sh' /\ bsum sh' = bsum sh + INR (length vs) * MB /\
      counts_values sh' (rev vs ++ l) /\ dhistory l (map (fun v => DAdd v 1) vs) (rev vs ++ l) (length vs).
  Proof.
    induction vs as [|v vs IH]; intros sh l H Hb Hn Hv Hs; cbn [map dps_run dps_run1 rev length app].
    - exists sh. split; [reflexivity|]. split; [cbn [INR]; lra|]. split; [exact H|constructor].
    - apply NoDup_cons_iff in Hn as [Hn1 Hn2]. destruct (Hv v (or_introl eq_refl)) as [Hv1 Hv2].
      assert (Hs1 : short (v :: l)) by (unfold short in *; cbn [app length] in *; rewrite app_length in Hs; lia).
      destruct (dps_add_new sh l v 1 H Hv1 Hv2 Hs1) as (E & G & S); [rewrite Hb; apply MB_pos|lra|]. rewrite E. cbn [obind].
      match type of G with counts_values ?x _ => set (sh1 := x) in * end.
      destruct (IH sh1 (v :: l) G) as (sh' & E' & A1 & A2 & A3).
      + cbn [sh1 dp_beta0]. rewrite Rmax_left; [reflexivity|]. rewrite Hb. pose proof MB_pos. lra.
      + exact Hn2.
      + intros w Hw. destruct (Hv w (or_intror Hw)) as [X Y]. split; [|exact Y]. intros [->|Z]; contradiction.
      + unfold short in *. cbn [app length] in Hs. rewrite app_length in *. cbn [length]. lia.
      + exists sh'. split; [exact E'|]. rewrite A1. unfold bsum in *. rewrite S, S_INR, Hb. split; [lra|].
        rewrite <- app_assoc. cbn [app]. split; [exact A2|]. constructor; auto; [|lra..]. lra.
  Qed.
End S.

(** Group::merge: the counts are pooled, the total of the source is added twice. *)
Lemma add_all_ok order : forall l, List.Forall (fun kv : Z * Z => (1 <= kv.2)%Z) order ->
  (Z.of_nat (length (msg_values (map fst order) (map snd order) ++ l)) <= 2147483647)%Z ->
  exists l', ctr_add_all (dpd_stat l) order = Ok (dpd_stat l') /\ Permutation l' (msg_values (map fst order) (map snd order) ++ l).
Proof.
  induction order as [|[k c] order IH]; intros l Ho Hl; cbn [ctr_add_all map fst snd msg_values app].
  - exists l. split; reflexivity.
  - apply List.Forall_cons_iff in Ho as [Hc Ho]. cbn [snd] in Hc. cbn [map fst snd msg_values] in Hl. rewrite !app_length, repeat_length in Hl.
    rewrite (dpd_ctr_add l k c) with (l' := repeat k (Z.to_nat c) ++ l); [| | | | |]; try lia.
    + cbn [obind fst]. destruct (IH (repeat k (Z.to_nat c) ++ l) Ho) as (l' & E & P).
      { rewrite !app_length, repeat_length. lia. }
      exists l'. split; [exact E|]. rewrite P, <- !app_assoc. apply Permutation_app_swap_app.
    + unfold short. lia.
    + intro j. rewrite zcount_app, zcount_repeat. destruct (Z.eqb_spec j k); subst; lia.
    + rewrite app_length, repeat_length. lia.
Qed.
Lemma order_values ys order : Permutation order (map_to_list (cmap (dpd_stat ys))) ->
  Permutation (msg_values (map fst order) (map snd order)) ys.
Proof.
  intro P.
  apply (Permutation_count_occ BinInt.Z.eq_dec). intro k.
  assert (G : forall o, List.NoDup (map fst o) -> (forall v c, In (v, c) o -> c = zcount ys v) ->
            zcount (msg_values (map fst o) (map snd o)) k = if In_dec BinInt.Z.eq_dec k (map fst o) then zcount ys k else 0%Z).
  { induction o as [|[v c] o IH]; intros Hn Hc; cbn [map fst snd msg_values]; [reflexivity|].
    cbn [map fst] in Hn. apply NoDup_cons_iff in Hn as [Hn1 Hn2]. rewrite zcount_app, zcount_repeat, (IH Hn2); [|intros; apply Hc; now right].
    rewrite (Hc v c (or_introl eq_refl)). pose proof (zcount_nonneg ys v).
    destruct (Z.eqb_spec k v) as [->|Hne].
    - destruct (In_dec BinInt.Z.eq_dec v (map fst o)); [contradiction|]. destruct (In_dec BinInt.Z.eq_dec v (v :: map fst o)) as [|X]; [lia|]. exfalso. apply X. now left.
    - destruct (In_dec BinInt.Z.eq_dec k (map fst o)) as [X|X], (In_dec BinInt.Z.eq_dec k (v :: map fst o)) as [Y|Y]; try lia.
      + exfalso. apply Y. now right. + exfalso. destruct Y; [congruence|contradiction]. }
  assert (E : forall v c, In (v, c) order -> c = zcount ys v).
  { intros v c Hin. apply (in_order _ _ _ _ P) in Hin. cbn [dpd_stat cmap] in Hin. rewrite dmap_lookup in Hin.
    destruct (Z.eqb_spec (zcount ys v) 0); [discriminate|]. now injection Hin. }
  specialize (G order (nodup_keys _ _ P) E).
  destruct (In_dec BinInt.Z.eq_dec k (map fst order)) as [Hk|Hk].
  - unfold zcount in G. lia.
  - rewrite (in_keys _ _ _ P) in Hk. cbn [dpd_stat cmap] in Hk. rewrite dmap_lookup in Hk.
    destruct (Z.eqb_spec (zcount ys k) 0); [unfold zcount in *; lia|]. exfalso. apply Hk. discriminate.
Qed.
Lemma order_positive ys order : Permutation order (map_to_list (cmap (dpd_stat ys))) ->
  List.Forall (fun kv : Z * Z => (1 <= kv.2 <= Z.of_nat (length ys))%Z) order.
Proof.
  intro P. apply List.Forall_forall. intros [k c] Hin. apply (in_order _ _ _ _ P) in Hin. cbn [dpd_stat cmap snd] in *. rewrite dmap_lookup in Hin.
  pose proof (zcount_nonneg ys k). pose proof (zcount_le ys k). destruct (Z.eqb_spec (zcount ys k) 0); [discriminate|]. injection Hin as <-. lia.
Qed.
Lemma dpd_merge_ok xs ys order : (Z.of_nat (length xs) + 2 * Z.of_nat (length ys) <= 2147483647)%Z ->
  Permutation order (map_to_list (cmap (dpd_stat ys))) ->
  ctr_merge (dpd_stat xs) (dpd_stat ys) order =
  Ok (mk_counter (dmap (ys ++ xs)) (Some (Z.of_nat (length xs) + 2 * Z.of_nat (length ys))%Z)).
Proof.
  intros Hl P.
  pose proof (order_values ys order P) as HP.
  destruct (add_all_ok order xs) as (l' & E & P').
  - eapply List.Forall_impl; [|exact (order_positive ys order P)]. intros kv H. cbn beta in H. lia.
  - rewrite app_length, (Permutation_length HP). lia.
  - unfold ctr_merge. rewrite E. cbn [obind dpd_stat ctotal]. rewrite HP in P'. unfold ctr_bump.
    rewrite (Permutation_length P'), app_length. rewrite i32_ok by (unfold i32_min, i32_max; lia).
    cbn [obind cmap]. f_equal. f_equal; [|f_equal; lia]. apply dmap_ext. intro k. apply zcount_perm. exact P'.
Qed.
