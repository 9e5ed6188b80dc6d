(** Scores are increments of the joint score; the law of a Gibbs move. *)
From Coq Require Import Permutation Reals Lra.
From Verif.spec Require Import DriverSpec TrackerSpec GroupSpec SlaveSpec PartitionSpec LgammaSpec RandomSpec SystemSpec GibbsSpec.
From Verif.model Require Import Base Packed Num NumR Driver PitmanYor IdTracker VectorMath Component Slave SlaveRun
  BB GP BNB NICH DD Sparse DPD Random System Gibbs.
From Verif.proof Require Import BaseProof PackedProof LoopProof GroupProof BBProof CountsProof DDProof NICHProof SlaveProof SlaveInst
  DriverProof PitmanYorProof PitmanYorR TrackerProof LgammaProof ScoreProof DDScore RandomProof.
From stdpp Require Import gmap.
From Verif.proof Require Import MapSum DPDProof DPDScore DPDSlave FeatureProof FeatureInst SystemProof ClientProof GibbsClusters.
Local Open Scope Z_scope.

Section G.
  Context {W : Type} (lg : R -> R) (Hlg : lgamma_like lg) (dl : nat).
  #[local] Hint Extern 0 (Num R) => exact (NumR lg) : typeclass_instances.
  Variable data : list W.
  Definition ok (w : W) : Prop := In w data.

  Definition good_kind (k : kind W) : Prop :=
    match k with
    | KBB _ sh _ => (0 < bb_alpha sh /\ 0 < bb_beta sh)%R
    | KGP _ _ pr | KBNB _ _ pr => small_counts (map pr data)
    | KNICH _ sh _ => (0 < ni_kappa sh /\ 0 < ni_nu sh /\ 0 < ni_sigmasq sh)%R
    | KDD _ sh pr => List.Forall (fun a => 0 < a)%R (dd_alphas sh) /\ List.Forall (fun w => 0 <= pr w < Z.of_nat (dd_dim sh)) data
    | KDPD fast sh pr => (0 < dp_alpha sh)%R /\ (forall v b, dp_betas sh !! v = Some b -> 0 < b)%R /\
        (fast = true -> dp_betas sh !! OTHER = None) /\ List.Forall (fun w => pr w <> OTHER /\ dp_betas sh !! pr w <> None) data
    end.

  Lemma good_follows k : good_kind k -> exists Inv pred, follows (N:=NumR lg) dl ok (feature_of lg k) Inv pred.
  Proof.
    destruct k as [[] sh pr|[] sh pr|[] sh pr|[] sh pr|[] sh pr|[] sh pr]; cbn [good_kind feature_of]; intro H.
    - apply fo_bb. - apply fo_bb_small. - apply fo_gp. - apply fo_gp_small. - apply fo_bnb. - apply fo_bnb_small.
    - apply fo_nich. - apply fo_nich_small.
    - destruct H as [A B]. apply fo_dd; [exact A|]. intros w Hw. rewrite List.Forall_forall in B. now apply B.
    - destruct H as [A B]. apply fo_dd_small; [exact A|]. intros w Hw. rewrite List.Forall_forall in B. now apply B.
    - destruct H as (A & B & C & D). apply fo_dpd; [exact A|exact B|now apply C|]. intros w Hw. rewrite List.Forall_forall in D. now apply D.
    - destruct H as (A & B & C & D). apply fo_dpd_small; [exact A|exact B|]. intros w Hw. rewrite List.Forall_forall in D. now apply D.
  Qed.

  (** Part of the data. *)
  Definition within (rows : list W) : Prop := exists rest, Permutation (rows ++ rest) data.
  Hypothesis Hlen : Z.of_nat (length data) < 2 ^ 31.
  Lemma within_short rows : within rows -> short rows.
  Proof. intros [rest P]. apply Permutation_length in P. rewrite app_length in P. unfold short. lia. Qed.
  Lemma within_tail w rows : within (w :: rows) -> within rows.
  Proof. intros [rest P]. exists (w :: rest). rewrite <- P. now rewrite <- Permutation_middle. Qed.
  Lemma within_forall (P : W -> Prop) rows : List.Forall P data -> within rows -> List.Forall P rows.
  Proof. intros H [rest Pm]. apply (Permutation_Forall (Permutation_sym Pm)) in H. now apply List.Forall_app in H. Qed.
  Lemma within_small (pr : W -> Z) rows : small_counts (map pr data) -> within rows -> small_counts (map pr rows).
  Proof.
    intros H [rest P]. apply (Permutation_map pr) in P. apply (small_counts_perm _ _ (Permutation_sym P)) in H.
    rewrite map_app in H. apply (small_counts_perm _ _ (Permutation_app_comm _ _)) in H.
    induction (map pr rest) as [|x l IH]; [exact H|]. apply IH. eapply small_counts_tail, H.
  Qed.

  Definition Mof (k : kind W) (rows : list W) : R :=
    match k with
    | KBB _ sh pr => bb_score_data sh (bb_stat (map pr rows))
    | KGP _ sh pr => gp_score_data sh (gp_stat (map pr rows))
    | KBNB _ sh pr => bnb_score_data sh (bnb_stat (map pr rows))
    | KNICH _ sh pr => nich_score_data sh (nich_stat (map pr rows))
    | KDD _ sh pr => dd_sd lg (dd_alphas sh) (dd_stat (dd_dim sh) (map pr rows))
    | KDPD _ sh pr => dpd_sd lg sh (dpd_stat (map pr rows))
    end.
  Definition gap (k : kind W) : R := match k with KNICH _ _ _ => pi_gap | _ => 0%R end.

  Lemma M_perm k l l' : Permutation l l' -> Mof k l = Mof k l'.
  Proof.
    intro P. destruct k as [f sh pr|f sh pr|f sh pr|f sh pr|f sh pr|f sh pr]; cbn [Mof]; pose proof (Permutation_map pr P) as P'; f_equal.
    - now apply bb_stat_perm. - now apply gp_stat_perm. - now apply bnb_stat_perm. - now apply nich_stat_perm.
    - now apply dd_stat_perm. - now apply dpd_stat_perm.
  Qed.
  Lemma M_empty k : good_kind k -> Mof k [] = 0%R.
  Proof.
    destruct k as [f sh pr|f sh pr|f sh pr|f sh pr|f sh pr|f sh pr]; cbn [Mof map good_kind]; intro H.
    - apply (bb_sd_empty lg sh). - apply (gp_sd_empty lg sh). - apply (bnb_sd_empty lg sh). - now apply nich_sd_empty.
    - pose proof (dd_sd_empty lg sh) as E. change (dd_init sh) with (c_init (DD R) sh) in E. rewrite dd_init_stat in E.
      rewrite (dd_score_data_eq lg) in E by (cbn; apply tally_length). now injection E.
    - apply dpd_sd_empty.
  Qed.
  Lemma dd_part (sh : dd_shared R) (pr : W -> Z) rows : List.Forall (fun w => 0 <= pr w < Z.of_nat (dd_dim sh)) data -> within rows ->
    in_dim (dd_dim sh) (map pr rows).
  Proof. intros H Hr. split; [apply short_map; now apply within_short|]. apply List.Forall_map. now apply (within_forall _ _ H). Qed.
  Lemma dpd_part (sh : dpd_shared R) (pr : W -> Z) rows : List.Forall (fun w => pr w <> OTHER /\ dp_betas sh !! pr w <> None) data -> within rows ->
    drawn_from (dpd_known sh) (map pr rows).
  Proof. intros H Hr. split; [apply short_map; now apply within_short|]. apply List.Forall_map. now apply (within_forall _ _ H). Qed.
  Notation filled k rows := (c_filled (ft_c (feature_of lg k)) dl (ft_sh (feature_of lg k)) (map (ft_val (feature_of lg k)) rows)).
  Lemma M_data k rows g : good_kind k -> within rows -> filled k rows = Ok g ->
    data_score lg dl k g (Mof k rows) /\ forall y, data_score lg dl k g y -> y = Mof k rows.
  Proof.
    destruct k as [f sh pr|f sh pr|f sh pr|f sh pr|f sh pr|f sh pr]; cbn [Mof good_kind feature_of ft_c ft_sh ft_val data_score]; intros H Hr E.
    - rewrite bb_filled in E by (apply short_map; now apply within_short). injection E as <-. auto.
    - rewrite gp_filled in E. injection E as <-. auto.
    - rewrite bnb_filled in E. injection E as <-. auto.
    - rewrite nich_filled in E by (apply short_map; now apply within_short). injection E as <-. auto.
    - destruct H as [_ H]. rewrite dd_filled in E by now apply dd_part. injection E as <-.
      rewrite (dd_score_data_eq lg) by (cbn; apply tally_length). split; [reflexivity|]. intros y Ey. now injection Ey.
    - destruct H as (_ & _ & _ & H). pose proof (dpd_part sh pr rows H Hr) as D. rewrite dpd_filled in E by exact D. injection E as <-. split.
      + intros order P. now apply dpd_score_data_eq.
      + intros y Hy. specialize (Hy _ (Permutation_refl _)). rewrite dpd_score_data_eq in Hy by auto. now injection Hy.
  Qed.
  Lemma M_step k rows w g : good_kind k -> within (w :: rows) -> filled k rows = Ok g ->
    ft_score (feature_of lg k) dl (ft_sh (feature_of lg k)) g (ft_val (feature_of lg k) w) = Ok (Mof k (w :: rows) - Mof k rows + gap k)%R.
  Proof.
    intros H Hr E. pose proof (within_tail _ _ Hr) as Hr'. revert H E.
    destruct k as [f sh pr|f sh pr|f sh pr|f sh pr|f sh pr|f sh pr]; cbn [Mof gap good_kind feature_of ft_c ft_sh ft_val ft_score map]; intros H E.
    - rewrite bb_filled in E by (apply short_map; now apply within_short). injection E as <-. unfold bb_gs. f_equal.
      rewrite (bb_step lg Hlg) by apply H. lra.
    - rewrite gp_filled in E. injection E as <-. unfold gp_gs. f_equal. rewrite gp_step by exact (within_small pr _ H Hr). lra.
    - rewrite bnb_filled in E. injection E as <-. unfold bnb_gs. f_equal. rewrite bnb_step by exact (within_small pr _ H Hr). lra.
    - rewrite nich_filled in E by (apply short_map; now apply within_short). injection E as <-. unfold nich_gs. f_equal. now apply nich_step.
    - destruct H as [A H]. rewrite dd_filled in E by now apply dd_part. injection E as <-.
      rewrite (dd_step lg Hlg) by (auto; exact (dd_part sh pr _ H Hr)). f_equal. lra.
    - destruct H as (A & B & _ & H). rewrite dpd_filled in E by now apply dpd_part. injection E as <-.
      rewrite (dpd_step lg dl sh Hlg) by (auto; exact (dpd_part sh pr _ H Hr)). f_equal. lra.
  Qed.

  (** The joint score as a function of the rows of the groups. *)
  Variables (m : py R) (ks : list (kind W)).
  Hypotheses (Hm : py_ok m) (Hks : List.Forall good_kind ks).
  Definition Msum (rows : list W) : R := rsum (map (fun k => Mof k rows) ks).
  Definition G0 : R := rsum (map gap ks).
  Definition Jrows (D : list (list W)) : R := (closed m (map length D) + rsum (map Msum D))%R.

  Lemma Msum_perm l l' : Permutation l l' -> Msum l = Msum l'.
  Proof. intro P. unfold Msum. f_equal. apply map_ext. intro k. now apply M_perm. Qed.
  Lemma Msum_empty : Msum [] = 0%R.
  Proof.
    unfold Msum. pose proof Hks as H. revert H. generalize ks. intro l. induction l as [|k l IH]; cbn [map rsum]; intro H; [reflexivity|].
    inversion H; subst. rewrite M_empty, IH by assumption. lra.
  Qed.
  Lemma closed_perm l l' : Permutation l l' -> closed m l = closed m l'.
  Proof. intro P. unfold closed. now rewrite (nz_perm _ _ P), (natsum_perm _ _ P), (PitmanYorR.rsum_perm _ _ (Permutation_map (fB m) P)). Qed.
  Lemma Jrows_perm D D' : Permutation D D' -> Jrows D = Jrows D'.
  Proof. intro P. unfold Jrows. now rewrite (closed_perm _ _ (Permutation_map _ P)), (PitmanYorR.rsum_perm _ _ (Permutation_map Msum P)). Qed.
  Lemma Jrows_rows D D' : List.Forall2 (@Permutation W) D D' -> Jrows D = Jrows D'.
  Proof.
    intro H. unfold Jrows. f_equal; f_equal; induction H as [|x y D D' P _ IH]; cbn [map]; auto; f_equal; auto.
    - now apply Permutation_length. - now apply Msum_perm.
  Qed.
  Definition full (D : list (list W)) : list (list W) := List.filter (fun x => negb (length x =? 0)%nat) D.
  Lemma Jrows_full D : Jrows D = Jrows (full D).
  Proof.
    unfold Jrows. rewrite closed_drop0. f_equal.
    - f_equal. unfold drop0, full. induction D as [|[|w x] D IH]; cbn [map List.filter length Nat.eqb negb]; congruence.
    - unfold full. induction D as [|[|w x] D IH]; cbn [map List.filter length Nat.eqb negb rsum]; [reflexivity| |now rewrite IH].
      rewrite Msum_empty, IH. lra.
  Qed.

  (** Adding a member to a block. *)
  Definition py_more (c n : nat) : R := ln ((INR c - disc m) / (INR n + alpha m)).
  Definition py_new (K n : nat) : R := ln ((alpha m + disc m * INR K) / (INR n + alpha m)).
  Lemma closed_add a c b : closed m (a ++ S c :: b) = (closed m (a ++ c :: b) +
    match c with O => py_new (nz (a ++ c :: b)) (natsum (a ++ c :: b)) | _ => py_more c (natsum (a ++ c :: b)) end)%R.
  Proof.
    pose proof Hm as [Ha [Hd0 Hd1]]. unfold closed. rewrite !map_app, !PitmanYorR.rsum_app. cbn [map rsum]. rewrite !nz_app, !natsum_app.
    set (N := natsum a). set (N' := natsum b).
    replace (natsum (S c :: b)) with (S (c + N')) by reflexivity. replace (natsum (c :: b)) with (c + N')%nat by reflexivity.
    replace (N + S (c + N'))%nat with (S (N + (c + N')))%nat by lia. set (T := (N + (c + N'))%nat).
    assert (HC : fC m (S T) = (fC m T + ln (alpha m + INR T))%R) by reflexivity. rewrite HC. pose proof (pos_INR T).
    destruct c as [|c].
    - unfold nz at 2 4 6. cbn [List.filter Nat.eqb negb length]. fold (nz b). replace (nz a + S (nz b))%nat with (S (nz a + nz b))%nat by lia.
      assert (HA : forall k, fA m (S k) = (fA m k + ln (alpha m + disc m * INR k))%R) by reflexivity. rewrite HA.
      replace (fB m 1) with 0%R by reflexivity. replace (fB m 0) with 0%R by reflexivity. unfold py_new.
      rewrite ln_div; [|now apply term_pos|lra]. rewrite (Rplus_comm (INR T)). lra.
    - unfold nz at 2 4. cbn [List.filter Nat.eqb negb length]. fold (nz b).
      assert (HB : fB m (S (S c)) = (fB m (S c) + ln (1 - disc m + INR c))%R) by (unfold fB; cbn [Nat.sub]; now rewrite Nat.sub_0_r).
      rewrite HB. unfold py_more. rewrite S_INR. pose proof (pos_INR c). rewrite ln_div by lra.
      replace (INR c + 1 - disc m)%R with (1 - disc m + INR c)%R by lra. rewrite (Rplus_comm (INR T)). lra.
  Qed.
  Lemma Jrows_add D1 xs D2 w : Jrows (D1 ++ (w :: xs) :: D2) = (Jrows (D1 ++ xs :: D2) + (Msum (w :: xs) - Msum xs) +
    match xs with [] => py_new (length (full (D1 ++ D2))) (length (concat (D1 ++ D2))) | _ => py_more (length xs) (length (concat (D1 ++ xs :: D2))) end)%R.
  Proof.
    unfold Jrows. rewrite !map_app, !PitmanYorR.rsum_app. cbn [map length rsum]. rewrite closed_add.
    assert (N : forall D : list (list W), natsum (map length D) = length (concat D)).
    { induction D as [|x D IH]; cbn [map concat]; [reflexivity|]. rewrite app_length, <- IH. reflexivity. }
    assert (Z : forall D : list (list W), nz (map length D) = length (full D)).
    { unfold nz, full. induction D as [|[|y x] D IH]; cbn [map List.filter length Nat.eqb negb]; auto. }
    destruct xs as [|x xs].
    - cbn [length]. rewrite nz_app, natsum_app. unfold nz at 2. cbn [List.filter Nat.eqb negb natsum fold_right Nat.add]. fold (natsum (map length D2)) (nz (map length D2)).
      rewrite !N, !Z. unfold full. rewrite concat_app, app_length, List.filter_app, app_length. lra.
    - cbn [length]. replace (natsum (map length D1 ++ S (length xs) :: map length D2)) with (length (concat (D1 ++ (x :: xs) :: D2))); [lra|].
      rewrite <- N, map_app. reflexivity.
  Qed.

  (** Rows named by their numbers. *)
  Definition rowsof (is : list nat) : list W := flat_map (fun j => match nth_error data j with Some w => [w] | None => [] end) is.
  Lemma rowsof_f2 is xs : List.Forall2 (fun i w => nth_error data i = Some w) is xs -> rowsof is = xs.
  Proof. unfold rowsof. induction 1 as [|i w is xs E _ IH]; cbn [flat_map]; [reflexivity|]. now rewrite E, IH. Qed.
  Lemma rowsof_perm is is' : Permutation is is' -> Permutation (rowsof is) (rowsof is').
  Proof. apply Permutation_flat_map. Qed.
  Lemma rowsof_length is : (forall j, In j is -> (j < length data)%nat) -> length (rowsof is) = length is.
  Proof.
    unfold rowsof. induction is as [|j is IH]; intro H; cbn [flat_map length]; [reflexivity|]. rewrite app_length, IH by (intros; apply H; now right).
    destruct (nth_error data j) eqn:E; [reflexivity|]. apply nth_error_None in E. specialize (H j (or_introl eq_refl)). lia.
  Qed.
  Lemma rowsof_all : rowsof (seq 0 (length data)) = data.
  Proof.
    unfold rowsof. assert (X : forall pre l, data = pre ++ l -> flat_map (fun j => match nth_error data j with Some w => [w] | None => [] end) (seq (length pre) (length l)) = l).
    { intros pre l. revert pre. induction l as [|w l IH]; intros pre E; cbn [length seq flat_map]; [reflexivity|].
      rewrite E at 1. rewrite nth_error_app2, Nat.sub_diag by lia. cbn [nth_error app]. f_equal.
      specialize (IH (pre ++ [w])). rewrite app_length in IH. cbn [length] in IH. rewrite Nat.add_1_r in IH. apply IH. now rewrite <- app_assoc. }
    exact (X [] data eq_refl).
  Qed.
  Lemma within_rows is : List.NoDup is -> (forall j, In j is -> (j < length data)%nat) -> within (rowsof is).
  Proof.
    intros Nd Hr. set (rest := List.filter (fun j => negb (existsb (Nat.eqb j) is)) (seq 0 (length data))).
    assert (Hx : forall j, existsb (Nat.eqb j) is = true <-> In j is).
    { intro j. rewrite existsb_exists. split; [intros (k & Hk & E); apply Nat.eqb_eq in E; now subst|]. intro Hj. exists j. split; [exact Hj|apply Nat.eqb_refl]. }
    assert (P : Permutation (is ++ rest) (seq 0 (length data))).
    { apply Permutation.NoDup_Permutation.
      - apply NoDup_ListNoDup, NoDup_app. split; [now apply NoDup_ListNoDup|]. split; [|apply NoDup_ListNoDup, List.NoDup_filter, seq_NoDup].
        intros j Hj Hf. apply elem_of_list_In in Hj, Hf. apply List.filter_In in Hf as [_ Hf].
        apply Hx in Hj. rewrite Hj in Hf. discriminate.
      - apply seq_NoDup.
      - intro j. rewrite in_app_iff, in_seq. unfold rest. rewrite List.filter_In, in_seq. split.
        + intros [Hj|[Hj _]]; [specialize (Hr j Hj); lia|exact Hj].
        + intro Hj. destruct (existsb (Nat.eqb j) is) eqn:E; [left; now apply Hx|right; auto]. }
    exists (rowsof rest). unfold rowsof at 1 2. rewrite <- flat_map_app. change (Permutation (rowsof (is ++ rest)) data).
    rewrite (rowsof_perm _ _ P). now rewrite rowsof_all.
  Qed.

  Notation feats := (map (feature_of lg) ks).
  Notation sinv' := (sinv (N:=NumR lg) dl ok m feats).
  Notation cinv' := (cinv (N:=NumR lg) dl ok m feats data).

  Lemma rsum_add {A} (f g : A -> R) l : rsum (map (fun x => f x + g x)%R l) = (rsum (map f l) + rsum (map g l))%R.
  Proof. induction l as [|x l IH]; cbn [map rsum]; [lra|]. rewrite IH. lra. Qed.
  Lemma exchange (kl : list (kind W)) (D : list (list W)) :
    rsum (map (fun k => rsum (map (Mof k) D)) kl) = rsum (map (fun rows => rsum (map (fun k => Mof k rows) kl)) D).
  Proof.
    induction kl as [|k kl IH]; cbn [map rsum].
    - induction D; cbn [map rsum]; lra.
    - rewrite IH. symmetry. apply rsum_add.
  Qed.
  Lemma counts_closed (L : list (Z * list W)) : py_score_counts m (map csize L) = closed m (map length (map snd L)).
  Proof.
    rewrite <- (score_counts_closed lg Hlg m _ Hm). f_equal. rewrite !map_map. reflexivity.
  Qed.
  Lemma feat_joint D k x : good_kind k -> fine ok D -> List.Forall within D -> fs_f x = feature_of lg k -> holds (N:=NumR lg) dl ok D x ->
    exists t zs, x = mk_fstate (feature_of lg k) t /\ List.Forall2 (data_score lg dl k) (sl_groups t) zs /\ rsum zs = rsum (map (Mof k) D).
  Proof.
    destruct x as [f t]. intros Hk Fd Hw E. cbn [fs_f] in E. subst f. intros (Inv & pred & Fo & Hi). cbn [fs_f fs_s] in *.
    exists t, (map (Mof k) D). split; [reflexivity|]. split; [|reflexivity].
    pose proof (fo_groups _ _ _ _ _ Fo D t Hi Fd) as F2. clear - F2 Hw Hk Hlen.
    induction F2 as [|rows g D gs Hg F2 IH]; cbn [map]; [constructor|]. inversion Hw; subst.
    constructor; [|now apply IH]. apply M_data; auto.
  Qed.
  Lemma feat_joint_unique D k t zs : good_kind k -> fine ok D -> List.Forall within D -> holds (N:=NumR lg) dl ok D (mk_fstate (feature_of lg k) t) ->
    List.Forall2 (data_score lg dl k) (sl_groups t) zs -> rsum zs = rsum (map (Mof k) D).
  Proof.
    intros Hk Fd Hw (Inv & pred & Fo & Hi) H. cbn [fs_f fs_s] in *.
    pose proof (fo_groups _ _ _ _ _ Fo D t Hi Fd) as F2. clear - F2 Hw Hk Hlen H.
    revert zs H. induction F2 as [|rows g D gs Hg F2 IH]; intros zs H; inversion H as [|? z ? zs' Hz H']; subst; cbn [map rsum]; [reflexivity|].
    inversion Hw; subst. rewrite (IH H3 _ H'). f_equal. eapply M_data; eauto.
  Qed.

  Lemma joint_rows s L n : sinv' s L n -> List.Forall within (map snd L) -> joint lg dl m ks s (Jrows (map snd L)).
  Proof.
    intros H Hw. pose proof (ok_fine _ _ _ (si_ok _ _ _ _ _ _ _ H)) as Fd. pose proof (si_feats _ _ _ _ _ _ _ H) as Hf.
    pose proof (si_same _ _ _ _ _ _ _ H) as Hs. set (D := map snd L) in *.
    exists (map (fun k => rsum (map (Mof k) D)) ks). split; [|split].
    - revert Hf Hs Hks. generalize (sy_feats s). clear - Fd Hw Hlen. generalize ks. intro kl.
      induction kl as [|k kl IH]; intros [|x fl] Hf Hs Hk; cbn [map combine] in *; try discriminate; [constructor|].
      injection Hs as E Hs. inversion Hf; subst. inversion Hk; subst. constructor; [|now apply IH].
      cbn [fst snd]. destruct (feat_joint D k x) as (t & zs & E1 & E2 & E3); auto. exists t, zs. auto.
    - apply (f_equal (@length _)) in Hs. now rewrite !map_length in Hs.
    - rewrite (si_counts _ _ _ _ _ _ _ H), counts_closed. unfold Jrows. f_equal. rewrite exchange. reflexivity.
  Qed.
  Lemma joint_unique s L n J : sinv' s L n -> List.Forall within (map snd L) -> joint lg dl m ks s J -> J = Jrows (map snd L).
  Proof.
    intros H Hw (ys & F2 & Hl & ->). pose proof (ok_fine _ _ _ (si_ok _ _ _ _ _ _ _ H)) as Fd. pose proof (si_feats _ _ _ _ _ _ _ H) as Hf.
    set (D := map snd L) in *. rewrite (si_counts _ _ _ _ _ _ _ H), counts_closed. unfold Jrows. f_equal.
    change (rsum (map Msum D)) with (rsum (map (fun rows => rsum (map (fun k => Mof k rows) ks)) D)). rewrite <- exchange.
    revert ys F2 Hl Hf Hks. generalize (sy_feats s). clear - Fd Hw Hlen. generalize ks. intro kl.
    induction kl as [|k kl IH]; intros [|x fl] ys F2 Hl Hf Hk; cbn [map combine length] in *; try discriminate; inversion F2 as [|? y ? ys' Hy F2']; subst; [reflexivity|].
    inversion Hf; subst. inversion Hk; subst. cbn [rsum]. rewrite (IH fl ys') by (auto; lia). f_equal.
    destruct Hy as (t & zs & E1 & E2 & ->). cbn [fst snd] in *. subst x. eapply feat_joint_unique; eauto.
  Qed.

  (** The score of a row against the groups. *)
  Definition qscore (D : list (list W)) (w : W) (xs : list W) : R :=
    (G0 + (Msum (w :: xs) - Msum xs) +
      match xs with
      | [] => py_new (length (full D)) (length (concat D)) - ln (INR (length D - length (full D)))
      | _ => py_more (length xs) (length (concat D))
      end)%R.
  Lemma fold_add l x : fold_left (nadd (F:=R)) l x = (x + rsum l)%R.
  Proof. revert x. induction l as [|y l IH]; intro x; cbn [fold_left rsum]; [lra|]. rewrite IH. cbn [nadd NumR]. lra. Qed.

  Lemma count_empty (L : list (Z * list W)) : (num_empty (map csize L) + length (full (map snd L)))%nat = length L.
  Proof.
    induction L as [|[g [|w xs]] L IH]; cbn [map]; [reflexivity| |]; rewrite num_empty_cons; cbn [snd length].
    - change (full ([] :: map snd L)) with (full (map snd L)). change (csize (g, [])) with 0. destruct (BinInt.Z.eq_dec 0 0); [lia|congruence].
    - change (full ((w :: xs) :: map snd L)) with ((w :: xs) :: full (map snd L)). cbn [length].
      destruct (BinInt.Z.eq_dec (csize (g, w :: xs)) 0) as [X|X]; [unfold csize in X; cbn [snd length] in X; lia|lia].
  Qed.
  Lemma prior_score s L n xs : sinv' s L n -> In xs (map snd L) ->
    (fS m (fE m (map csize L)) (Z.of_nat (length xs)) + - ln (IZR (sum_sizes (map csize L)) + alpha m) =
     match xs with
     | [] => py_new (length (full (map snd L))) (length (concat (map snd L))) - ln (INR (length (map snd L) - length (full (map snd L))))
     | _ => py_more (length xs) (length (concat (map snd L)))
     end)%R.
  Proof.
    intros H Hi. pose proof Hm as [Ha [Hd0 Hd1]]. pose proof (pi_d _ _ (si_py _ _ _ _ _ _ _ H)) as Hd.
    pose proof (si_counts _ _ _ _ _ _ _ H) as Hc.
    assert (Hp : List.Forall (fun c => 0 <= c) (map csize L)) by (rewrite <- Hc; apply Hd).
    assert (Hz : In 0 (map csize L)) by (rewrite <- Hc; apply Hd).
    etransitivity; [exact (cached_eq_direct lg m (map csize L) (Z.of_nat (length xs)) Hm Hp Hz (Nat2Z.is_nonneg _))|].
    pose proof (count_empty L) as Ce. apply num_empty_In in Hz. rewrite sum_rows. unfold rows_in.
    assert (E1 : (length (map csize L) - num_empty (map csize L))%nat = length (full (map snd L))) by (rewrite map_length; lia).
    assert (E2 : num_empty (map csize L) = (length (map snd L) - length (full (map snd L)))%nat) by (rewrite map_length; lia).
    rewrite E1, <- E2. unfold py_score_add. cbn [nof nlog nadd nsub nmul ndiv NR NumR]. rewrite <- !INR_IZR_INZ.
    set (T := length (concat (map snd L))). pose proof (pos_INR T). pose proof (lt_0_INR _ Hz) as He. set (E := INR (num_empty (map csize L))) in *.
    destruct xs as [|x xs].
    - cbn [length]. change (Z.of_nat 0 =? 0) with true. cbn iota. unfold py_new.
      pose proof (term_pos m (length (full (map snd L))) Hm) as Ht.
      rewrite (ln_div _ ((INR T + alpha m) * E)), (ln_div _ (INR T + alpha m)), ln_mult by (first [exact Ht|lra|apply Rmult_lt_0_compat; lra]).
      match goal with |- (ln ?a - _ = ln ?b - _ - _)%R => change a with b end. lra.
    - destruct (Z.eqb_spec (Z.of_nat (length (x :: xs))) 0) as [X|X]; [cbn [length] in X; lia|]. reflexivity.
  Qed.
  Lemma group_within c L n seated xs : cinv' c L n seated -> In xs (map snd L) -> within xs.
  Proof.
    intros H Hi. apply in_map_iff in Hi as ([g ys] & E & Hi). cbn [snd] in E. subst ys.
    destruct (ci_members _ _ _ _ _ _ _ _ _ H g xs Hi) as (is & Nd & His & F2). rewrite <- (rowsof_f2 _ _ F2). apply within_rows; [exact Nd|].
    intros j Hj. apply (ci_range _ _ _ _ _ _ _ _ _ H). apply (ci_seated _ _ _ _ _ _ _ _ _ H). exists g. now apply His.
  Qed.
  Lemma groups_within c L n seated : cinv' c L n seated -> List.Forall within (map snd L).
  Proof. intro H. apply List.Forall_forall. intros xs Hx. eapply group_within; eauto. Qed.
  Lemma more_within c L n seated i w xs : cinv' c L n seated -> nth_error data i = Some w -> ~ In i seated -> In xs (map snd L) -> within (w :: xs).
  Proof.
    intros H Hw Hn Hi. apply in_map_iff in Hi as ([g ys] & E & Hi). cbn [snd] in E. subst ys.
    destruct (ci_members _ _ _ _ _ _ _ _ _ H g xs Hi) as (is & Nd & His & F2).
    assert (Hs : forall j, In j is -> In j seated) by (intros j Hj; apply (ci_seated _ _ _ _ _ _ _ _ _ H); exists g; now apply His).
    rewrite <- (rowsof_f2 (i :: is) (w :: xs)) by now constructor. apply within_rows.
    - constructor; [|exact Nd]. intro X. now apply Hn, Hs.
    - intros j [<-|Hj]; [apply nth_error_Some; congruence|]. apply (ci_range _ _ _ _ _ _ _ _ _ H). now apply Hs.
  Qed.
  Lemma feat_scores D w xs fl kl ys p : fine ok D -> within (w :: xs) -> nth_error D p = Some xs -> List.Forall good_kind kl -> map fs_f fl = map (feature_of lg) kl ->
    List.Forall2 (fun (f : fstate W R) y => exists g, nth_error (sl_groups (fs_s f)) p = Some g /\
            c_filled (ft_c (fs_f f)) dl (ft_sh (fs_f f)) (map (ft_val (fs_f f)) xs) = Ok g /\
            ft_score (fs_f f) dl (ft_sh (fs_f f)) g (ft_val (fs_f f) w) = Ok y) fl ys ->
    rsum ys = (rsum (map (fun k => Mof k (w :: xs)) kl) - rsum (map (fun k => Mof k xs) kl) + rsum (map gap kl))%R.
  Proof.
    intros Fd Hw Hp Hk. revert fl ys. induction Hk as [|k kl Hk Hkl IH]; intros [|x fl] ys E F2; cbn [map] in E; try discriminate; inversion F2 as [|? y ? ys' Hy F2']; subst; cbn [map rsum].
    - lra.
    - injection E as E1 E2. rewrite (IH fl ys' E2 F2'). destruct Hy as (g & _ & Eg & Es). destruct x as [f t]. cbn [fs_f fs_s] in *. subst f.
      rewrite (M_step k xs w g Hk Hw Eg) in Es. injection Es as <-. lra.
  Qed.
  Lemma nth_ext_eq {A} (l l' : list A) : (forall i, nth_error l i = nth_error l' i) -> l = l'.
  Proof.
    revert l'. induction l as [|x l IH]; intros [|y l'] H; [reflexivity|specialize (H 0%nat); discriminate|specialize (H 0%nat); discriminate|].
    f_equal; [specialize (H 0%nat); cbn in H; congruence|]. apply IH. intro i. exact (H (S i)).
  Qed.
  Lemma scores_eq c L n seated i w : cinv' c L n seated -> nth_error data i = Some w -> ~ In i seated ->
    sys_score_value dl m (cl_sys c) w (length (counts (cdriver (sy_py (cl_sys c))))) = Ok (map (qscore (map snd L) w) (map snd L)).
  Proof.
    intros H Hw Hn. pose proof (ci_sys _ _ _ _ _ _ _ _ _ H) as Hs. unfold sys_score_value.
    rewrite (py_score_value_ok dl m _ (si_py _ _ _ _ _ _ _ Hs)). cbn [obind]. rewrite (si_counts _ _ _ _ _ _ _ Hs).
    pose proof (ok_fine _ _ _ (si_ok _ _ _ _ _ _ _ Hs)) as Fd.
    match goal with |- feats_score _ _ _ ?x = _ => set (sc := x); destruct (feats_score_ok dl ok (map snd L) w
      Fd (nth_error_In _ _ Hw) (sy_feats (cl_sys c)) sc (si_feats _ _ _ _ _ _ _ Hs)) as (r & E & Lr & Hr) end.
    { unfold sc. now rewrite !map_length. }
    rewrite E. f_equal. apply nth_ext_eq. intro p.
    destruct (nth_error (map snd L) p) as [xs|] eqn:Ep.
    - rewrite (map_nth_error _ _ _ Ep). pose proof (nth_error_In _ _ Ep) as Hi.
      destruct (Hr p xs (nadd (fS m (fE m (map csize L)) (Z.of_nat (length xs))) (nneg (nlog (nadd (nof (sum_sizes (map csize L))) (alpha m))))) Ep) as (ys & F2 & En).
      { unfold sc. rewrite nth_error_map in Ep. destruct (nth_error L p) as [[g xs']|] eqn:El; [|discriminate]. injection Ep as ->.
        rewrite !nth_error_map, El. reflexivity. }
      rewrite En, fold_add. f_equal. cbn [nadd nneg nlog nof NumR].
      rewrite (feat_scores (map snd L) w xs (sy_feats (cl_sys c)) ks ys p Fd (more_within _ _ _ _ _ _ _ H Hw Hn Hi) Ep Hks (si_same _ _ _ _ _ _ _ Hs) F2).
      pose proof (prior_score _ _ _ xs Hs Hi) as Pr. unfold qscore, Msum, G0. rewrite <- Pr. lra.
    - apply nth_error_None in Ep. assert (X : nth_error r p = None) by (apply nth_error_None; lia). rewrite X. symmetry.
      apply nth_error_None. now rewrite map_length.
  Qed.

  (** The blocks of a clustering. *)
  Definition blk (a : gmap nat Z) (g : Z) : list nat := List.filter (fun j => bool_decide (a !! j = Some g)) (seq 0 (length data)).
  Definition cls (a : gmap nat Z) (j : nat) : list nat := List.filter (fun k => bool_decide (a !! k = a !! j)) (seq 0 (length data)).
  Definition bl (a : gmap nat Z) (ids : list Z) : list (list nat) := List.filter (fun x => negb (length x =? 0)%nat) (map (blk a) ids).
  Lemma in_blk a g j : In j (blk a g) <-> (j < length data)%nat /\ a !! j = Some g.
  Proof. unfold blk. rewrite List.filter_In, in_seq, bool_decide_eq_true. intuition lia. Qed.
  Lemma group_rows c L n seated g xs : cinv' c L n seated -> In (g, xs) L -> Permutation xs (rowsof (blk (cl_assign c) g)).
  Proof.
    intros H Hi. destruct (ci_members _ _ _ _ _ _ _ _ _ H g xs Hi) as (is & Nd & His & F2). rewrite <- (rowsof_f2 _ _ F2). apply rowsof_perm.
    apply Permutation.NoDup_Permutation; [exact Nd|apply List.NoDup_filter, seq_NoDup|]. intro j. rewrite in_blk, His. split; [|tauto]. intro E.
    split; [|exact E]. apply (ci_range _ _ _ _ _ _ _ _ _ H). apply (ci_seated _ _ _ _ _ _ _ _ _ H). eauto.
  Qed.
  Lemma blk_length a g : length (rowsof (blk a g)) = length (blk a g).
  Proof. apply rowsof_length. intros j Hj. now apply in_blk in Hj. Qed.
  Lemma full_rows c L n seated : cinv' c L n seated ->
    List.Forall2 (@Permutation W) (full (map snd L)) (map rowsof (bl (cl_assign c) (map fst L))).
  Proof.
    intro H. assert (X : forall g xs, In (g, xs) L -> Permutation xs (rowsof (blk (cl_assign c) g))) by (intros; eapply group_rows; eauto).
    clear H. unfold full, bl. induction L as [|[g xs] L IH]; cbn [map List.filter fst snd]; [constructor|].
    pose proof (X g xs (or_introl eq_refl)) as P. pose proof (Permutation_length P) as E. rewrite blk_length in E. rewrite <- E.
    assert (IH' := IH (fun g xs Hi => X g xs (or_intror Hi))). destruct (negb (length xs =? 0)%nat); cbn [map]; [now constructor|exact IH'].
  Qed.
  Lemma in_bl c L n seated b : cinv' c L n seated -> In b (bl (cl_assign c) (map fst L)) <-> exists j, In j seated /\ b = cls (cl_assign c) j.
  Proof.
    intro H. set (a := cl_assign c).
    assert (Ec : forall j g, a !! j = Some g -> cls a j = blk a g) by (intros j g E; unfold cls, blk; now rewrite E).
    unfold bl. rewrite List.filter_In, in_map_iff. split.
    - intros [(g & <- & Hg) Hn]. destruct (blk a g) as [|j b] eqn:E; [discriminate|].
      assert (Hj : In j (blk a g)) by (rewrite E; now left). apply in_blk in Hj as [Hj Ej]. exists j. split.
      + apply (ci_seated _ _ _ _ _ _ _ _ _ H). eauto.
      + rewrite <- E. symmetry. now apply Ec.
    - intros (j & Hj & ->). destruct (proj1 (ci_seated _ _ _ _ _ _ _ _ _ H j) Hj) as [g E]. fold a in E.
      split; [exists g; split; [symmetry; now apply Ec|eapply (ci_live _ _ _ _ _ _ _ _ _ H); eauto]|]. rewrite (Ec j g E).
      assert (X : In j (blk a g)) by (apply in_blk; split; [now apply (ci_range _ _ _ _ _ _ _ _ _ H)|exact E]).
      destruct (blk a g); [destruct X|reflexivity].
  Qed.
  Lemma bl_nodup a ids : List.NoDup ids -> List.NoDup (bl a ids).
  Proof.
    unfold bl. induction 1 as [|g ids Hg Nd IH]; cbn [map List.filter]; [constructor|].
    destruct (blk a g) as [|j b] eqn:E; cbn [length Nat.eqb negb]; [exact IH|]. constructor; [|exact IH].
    intro X. apply List.filter_In in X as [X _]. apply in_map_iff in X as (g' & E' & Hg').
    assert (H1 : In j (blk a g)) by (rewrite E; now left). assert (H2 : In j (blk a g')) by (rewrite E'; now left).
    apply in_blk in H1 as [_ H1], H2 as [_ H2]. assert (g = g') by congruence. now subst.
  Qed.
  Lemma bl_perm c L n seated c' L' n' seated' : cinv' c L n seated -> cinv' c' L' n' seated' -> same_clusters (cl_assign c) (cl_assign c') ->
    Permutation (bl (cl_assign c) (map fst L)) (bl (cl_assign c') (map fst L')).
  Proof.
    intros H H' [S1 S2]. apply Permutation.NoDup_Permutation.
    - apply bl_nodup. eapply ids_nodup, (ci_sys _ _ _ _ _ _ _ _ _ H).
    - apply bl_nodup. eapply ids_nodup, (ci_sys _ _ _ _ _ _ _ _ _ H').
    - assert (Hs : forall j, In j seated <-> In j seated').
      { intro j. rewrite (ci_seated _ _ _ _ _ _ _ _ _ H), (ci_seated _ _ _ _ _ _ _ _ _ H'). specialize (S1 j).
        destruct (cl_assign c !! j), (cl_assign c' !! j); split; intros [g E]; eauto; exfalso; [assert (Some z = None) by now apply S1|assert (Some z = None) by now apply S1]; congruence. }
      assert (Hc : forall j, In j seated -> cls (cl_assign c) j = cls (cl_assign c') j).
      { intros j Hj. pose proof (proj1 (ci_seated _ _ _ _ _ _ _ _ _ H j) Hj) as [g E]. unfold cls. apply List.filter_ext. intro k.
        apply bool_decide_ext. destruct (cl_assign c !! k) as [gk|] eqn:Ek.
        - specialize (S2 k j ltac:(congruence) ltac:(congruence)). rewrite Ek in S2. exact S2.
        - split; [congruence|]. intro X. exfalso. assert (Y : cl_assign c' !! k = None) by now apply S1. rewrite Y in X. symmetry in X. apply S1 in X. congruence. }
      intro b. rewrite (in_bl _ _ _ _ _ H), (in_bl _ _ _ _ _ H'). split; intros (j & Hj & ->); exists j.
      + split; [now apply Hs|now apply Hc].
      + apply Hs in Hj. split; [exact Hj|symmetry; now apply Hc].
  Qed.
  Lemma J_clusters c L n seated c' L' n' seated' : cinv' c L n seated -> cinv' c' L' n' seated' -> same_clusters (cl_assign c) (cl_assign c') ->
    Jrows (map snd L) = Jrows (map snd L').
  Proof.
    intros H H' Hs. rewrite (Jrows_full (map snd L)), (Jrows_full (map snd L')), (Jrows_rows _ _ (full_rows _ _ _ _ H)), (Jrows_rows _ _ (full_rows _ _ _ _ H')).
    apply Jrows_perm, Permutation_map. eapply bl_perm; eauto.
  Qed.

  (** The normaliser of the scores. *)
  Definition Zf (D : list (list W)) (w : W) : R :=
    (rsum (map (fun xs => exp (Msum (w :: xs) - Msum xs + py_more (length xs) (length (concat D)))) D) +
     exp (Msum [w] + py_new (length D) (length (concat D))))%R.
  Lemma concat_full D : length (concat (full D)) = length (concat D).
  Proof. unfold full. induction D as [|[|x xs] D IH]; cbn [List.filter length Nat.eqb negb concat]; auto. rewrite !app_length. now rewrite IH. Qed.
  Lemma Zf_perm D D' w : Permutation D D' -> Zf D w = Zf D' w.
  Proof.
    intro P. unfold Zf. assert (E : length (concat D) = length (concat D')).
    { clear - P. induction P; cbn [concat]; rewrite ?app_length in *; lia. }
    rewrite E, (Permutation_length P). f_equal. apply PitmanYorR.rsum_perm. now apply Permutation_map.
  Qed.
  Lemma Zf_rows D D' w : List.Forall2 (@Permutation W) D D' -> Zf D w = Zf D' w.
  Proof.
    intro H. unfold Zf. assert (E : length (concat D) = length (concat D')).
    { clear - H. induction H as [|x y D D' P H IH]; cbn [concat]; [reflexivity|]. rewrite !app_length, IH, (Permutation_length P). reflexivity. }
    rewrite E, (Forall2_length _ _ _ H). f_equal. f_equal. clear E. generalize (length (concat D')). intro T.
    induction H as [|x y D D' P H IH]; cbn [map]; [reflexivity|]. f_equal; [|exact IH].
    rewrite (Msum_perm _ _ P), (Permutation_length P), (Msum_perm (w :: x) (w :: y)); [reflexivity|now constructor].
  Qed.
  Lemma Z_clusters c L n seated c' L' n' seated' w : cinv' c L n seated -> cinv' c' L' n' seated' -> same_clusters (cl_assign c) (cl_assign c') ->
    Zf (full (map snd L)) w = Zf (full (map snd L')) w.
  Proof.
    intros H H' Hs. rewrite (Zf_rows _ _ _ (full_rows _ _ _ _ H)), (Zf_rows _ _ _ (full_rows _ _ _ _ H')).
    apply Zf_perm, Permutation_map. eapply bl_perm; eauto.
  Qed.
  Lemma full_le D : (length (full D) <= length D)%nat.
  Proof. unfold full. induction D as [|x D IH]; cbn [List.filter length]; [lia|]. destruct (negb _); cbn [length]; lia. Qed.
  Lemma rsum_split (D : list (list W)) (f : list W -> R) :
    rsum (map f D) = (rsum (map f (full D)) + INR (length D - length (full D)) * f [])%R.
  Proof.
    induction D as [|[|x xs] D IH]; cbn [map rsum].
    - cbn. lra.
    - change (full ([] :: D)) with (full D). rewrite IH. cbn [length]. pose proof (full_le D).
      replace (S (length D) - length (full D))%nat with (S (length D - length (full D))) by lia. rewrite S_INR. lra.
    - change (full ((x :: xs) :: D)) with ((x :: xs) :: full D). cbn [map rsum length]. rewrite IH.
      replace (S (length D) - S (length (full D)))%nat with (length D - length (full D))%nat by lia. lra.
  Qed.
  Lemma sum_scores D w : In [] D -> rsum (map exp (map (qscore D w) D)) = (exp G0 * Zf (full D) w)%R.
  Proof.
    intro Hz. rewrite map_map, rsum_split. unfold Zf. rewrite Rmult_plus_distr_l. f_equal.
    - rewrite concat_full. assert (X : List.Forall (fun x : list W => x <> []) (full D)).
      { apply List.Forall_forall. intros x Hx. unfold full in Hx. apply List.filter_In in Hx as [_ Hx]. intros ->. discriminate. }
      induction X as [|x l Hx _ IH]; cbn [map rsum]; [lra|]. rewrite IH, Rmult_plus_distr_l. f_equal. rewrite <- exp_plus. f_equal.
      unfold qscore. destruct x; [congruence|]. lra.
    - assert (He : (0 < INR (length D - length (full D)))%R).
      { apply lt_0_INR. induction D as [|[|x xs] D IH]; [destruct Hz| |].
        - change (full ([] :: D)) with (full D). pose proof (full_le D). cbn [length]. lia.
        - change (full ((x :: xs) :: D)) with ((x :: xs) :: full D). cbn [length]. destruct Hz as [Hz|Hz]; [discriminate|]. specialize (IH Hz). lia. }
      unfold qscore. rewrite concat_full, Msum_empty. rewrite <- exp_plus.
      rewrite <- (exp_ln (INR (length D - length (full D)))) at 1 by exact He. rewrite <- exp_plus. f_equal. lra.
  Qed.
  Lemma q_joint D1 xs D2 w : qscore (D1 ++ xs :: D2) w xs = (Jrows (D1 ++ (w :: xs) :: D2) - Jrows (D1 ++ xs :: D2) + G0 -
    match xs with [] => ln (INR (length (D1 ++ xs :: D2) - length (full (D1 ++ xs :: D2)))) | _ => 0 end)%R.
  Proof.
    rewrite Jrows_add. unfold qscore. destruct xs as [|x xs]; [|lra].
    assert (E : full (D1 ++ [] :: D2) = full (D1 ++ D2)) by (unfold full; now rewrite !List.filter_app).
    assert (E' : length (concat (D1 ++ [] :: D2)) = length (concat (D1 ++ D2))) by now rewrite !concat_app.
    rewrite E, E'. lra.
  Qed.

  (** One move. *)
  Lemma data_in : List.Forall ok data.
  Proof. apply List.Forall_forall. intros w Hw. exact Hw. Qed.
  Notation seat c i p := (client_run1 dl m data c (Seat i (fun _ => p))).
  Lemma seat_result c L1 g xs L2 n seated i w : cinv' c (L1 ++ (g, xs) :: L2) n seated -> nth_error data i = Some w -> ~ In i seated -> n + 1 <= 2 ^ 32 ->
    exists c1 L2' n', seat c i (length L1) = Ok c1 /\ cl_assign c1 = <[i := g]> (cl_assign c) /\
      cinv' c1 (L1 ++ (g, w :: xs) :: L2') n' (i :: seated) /\ n' <= n + 1 /\
      Jrows (map snd (L1 ++ (g, w :: xs) :: L2')) = Jrows (map snd L1 ++ (w :: xs) :: map snd L2).
  Proof.
    intros H Hw Hn Hi. destruct (seat_at dl ok m feats data data_in Hlen c L1 g xs L2 n seated i w H Hw Hn Hi) as (s' & L2' & n' & E & G & I & B & HL).
    cbn [client_run1]. unfold vget. rewrite Hw. cbn [obind]. unfold client_seat. rewrite (scores_eq c _ _ _ _ _ H Hw Hn). cbn [obind].
    rewrite E. cbn [obind]. rewrite G. cbn [obind]. exists (mk_client s' (<[i := g]> (cl_assign c))), L2', n'. split; [reflexivity|]. split; [reflexivity|].
    split; [exact I|]. split; [lia|]. destruct HL as [-> | ->]; rewrite map_app; cbn [map snd]; [reflexivity|]. rewrite map_app. cbn [map snd].
    rewrite (Jrows_full (map snd L1 ++ (w :: xs) :: map snd L2 ++ [[]])), (Jrows_full (map snd L1 ++ (w :: xs) :: map snd L2)). f_equal.
    unfold full. rewrite !List.filter_app. cbn [List.filter]. rewrite !List.filter_app. cbn [List.filter length Nat.eqb negb]. now rewrite app_nil_r.
  Qed.
  Lemma nth_map_mid {A} (f : A -> R) l1 x l2 : nth (length l1) (map f (l1 ++ x :: l2)) 0%R = f x.
  Proof. rewrite map_app. cbn [map]. rewrite <- (map_length f l1). apply nth_middle. Qed.
  Definition isnil (o : option (list W)) : bool := match o with Some [] => true | _ => false end.
  Lemma empties_length D : forall b, length (List.filter (fun p => isnil (nth_error D (p - b))) (seq b (length D))) = (length D - length (full D))%nat.
  Proof.
    induction D as [|x D IH]; intro b; [reflexivity|]. cbn [length seq List.filter]. rewrite Nat.sub_diag. cbn [nth_error].
    rewrite (List.filter_ext_in _ (fun p => isnil (nth_error D (p - S b)))).
    2:{ intros p Hp. apply in_seq in Hp. replace (p - b)%nat with (S (p - S b)) by lia. reflexivity. }
    pose proof (full_le D). destruct x as [|y x]; cbn [isnil length]; rewrite IH.
    - change (full ([] :: D)) with (full D). lia.
    - change (full ((y :: x) :: D)) with ((y :: x) :: full D). cbn [length]. lia.
  Qed.
  Lemma const_sum {A} (f : A -> R) x l : (forall p, In p l -> f p = x) -> rsum (map f l) = (INR (length l) * x)%R.
  Proof.
    induction l as [|p l IH]; intro H; [cbn; lra|]. change (length (p :: l)) with (S (length l)). cbn [map rsum]. rewrite S_INR, (H p (or_introl eq_refl)), IH by (intros; apply H; now right). lra.
  Qed.

  Lemma hit_set c0 L n seated i w c' L' n' seated' :
    cinv' c0 L n seated -> nth_error data i = Some w -> ~ In i seated -> n + 1 <= 2 ^ 32 ->
    cinv' c' L' n' seated' -> In i seated' -> same_clusters (cl_assign c0) (delete i (cl_assign c')) ->
    exists h, List.NoDup h /\
      (forall p, In p h <-> (p < length L)%nat /\ exists c1, seat c0 i p = Ok c1 /\ same_clusters (cl_assign c1) (cl_assign c')) /\
      rsum (map (fun p => exp (nth p (map (qscore (map snd L) w) (map snd L)) 0%R)) h) = exp (Jrows (map snd L') - Jrows (map snd L) + G0)%R.
  Proof.
    intros H Hw Hn Hi H' Hi' Hs. set (a0 := cl_assign c0) in *. set (a' := cl_assign c') in *. set (D := map snd L).
    assert (A0 : a0 !! i = None).
    { destruct (a0 !! i) as [g|] eqn:E; [|reflexivity]. exfalso. apply Hn, (ci_seated _ _ _ _ _ _ _ _ _ H). eauto. }
    assert (A1 : a' !! i <> None). { destruct (proj1 (ci_seated _ _ _ _ _ _ _ _ _ H' i) Hi') as [g E]. fold a' in E. congruence. }
    assert (Iff : forall L1 g xs L2, L = L1 ++ (g, xs) :: L2 ->
      (exists c1, seat c0 i (length L1) = Ok c1 /\ same_clusters (cl_assign c1) a') <-> same_clusters (<[i := g]> a0) a').
    { intros L1 g xs L2 ->. destruct (seat_result c0 L1 g xs L2 n seated i w H Hw Hn Hi) as (c1 & L2' & n1 & E & Ea & _). fold a0 in Ea. split.
      - intros (c2 & E2 & S2). rewrite E in E2. injection E2 as <-. now rewrite Ea in S2.
      - intro S2. exists c1. split; [exact E|]. now rewrite Ea. }
    assert (Val : forall L1 g xs L2, L = L1 ++ (g, xs) :: L2 -> same_clusters (<[i := g]> a0) a' ->
      qscore D w xs = (Jrows (map snd L') - Jrows D + G0 - match xs with [] => ln (INR (length D - length (full D))) | _ => 0%R end)%R).
    { intros L1 g xs L2 -> S2. destruct (seat_result c0 L1 g xs L2 n seated i w H Hw Hn Hi) as (c1 & L2' & n1 & E & Ea & I & _ & J). fold a0 in Ea.
      rewrite <- Ea in S2. rewrite <- (J_clusters _ _ _ _ _ _ _ _ I H' S2), J. unfold D. rewrite map_app. cbn [map snd]. apply q_joint. }
    assert (Mem : forall g xs, In (g, xs) L -> (xs = [] <-> forall j, a0 !! j <> Some g)).
    { intros g xs Hg. destruct (ci_members _ _ _ _ _ _ _ _ _ H g xs Hg) as (is & Nd & His & F2). fold a0 in His. split.
      - intros -> j E. apply His in E. inversion F2; subst. destruct E.
      - intro X. destruct is as [|j is]; [now inversion F2|]. exfalso. apply (X j). apply His. now left. }
    destruct (existsb (fun j => negb (j =? i)%nat && bool_decide (a' !! j = a' !! i)) (seq 0 (length data))) eqn:Ex.
    - (* a mate *)
      apply existsb_exists in Ex as (j & _ & Ej). apply andb_true_iff in Ej as [Nj Ej]. apply negb_true_iff, Nat.eqb_neq in Nj. apply bool_decide_eq_true in Ej.
      destruct (a0 !! j) as [g|] eqn:E0.
      2:{ exfalso. apply (off_none a0 a' i Hs j Nj) in E0. congruence. }
      pose proof (ci_live _ _ _ _ _ _ _ _ _ H j g E0) as Hg. apply in_map_iff in Hg as ([g' xs] & X & Hg). cbn [fst] in X. subst g'.
      pose proof (sc_mate a0 a' i A0 A1 Hs g j Nj Ej E0) as S2.
      assert (Hx : xs <> []). { intro X. apply (Mem g xs Hg) with (j := j) in X. congruence. }
      apply in_split in Hg as (L1 & L2 & EL). exists [length L1]. split; [repeat constructor; intros []|]. split.
      + intro p. split.
        * intros [<-|[]]. split; [rewrite EL, app_length; cbn [length]; lia|]. now apply (Iff L1 g xs L2 EL).
        * intros [Hp Hc]. left. destruct (nth_error L p) as [[g2 xs2]|] eqn:Ep; [|apply nth_error_None in Ep; lia].
          pose proof Ep as Ep'. apply nth_error_split in Ep as (M1 & M2 & EM & <-). apply (Iff M1 g2 xs2 M2 EM) in Hc.
          pose proof (sc_mate_inv a0 a' i A1 Hs g2 j Hc Nj Ej) as Y. assert (g2 = g) by congruence. subst g2.
          pose proof (ids_nodup _ _ _ _ _ _ _ (ci_sys _ _ _ _ _ _ _ _ _ H)) as Nd.
          assert (X1 : nth_error (map fst L) (length L1) = Some g).
          { rewrite EL, map_app, <- (map_length fst L1), nth_error_app2, Nat.sub_diag by lia. reflexivity. }
          assert (X2 : nth_error (map fst L) (length M1) = Some g) by now rewrite nth_error_map, Ep'.
          eapply (proj1 (List.NoDup_nth_error _) Nd); [|congruence]. apply nth_error_Some. congruence.
      + cbn [map rsum]. rewrite Rplus_0_r. unfold D at 2. rewrite EL at 1. rewrite map_app. cbn [map snd].
        rewrite <- (map_length snd L1), nth_map_mid. fold D. rewrite (Val L1 g xs L2 EL S2). f_equal. destruct xs; [congruence|lra].
    - (* alone *)
      assert (Al : forall j, j <> i -> a' !! j <> a' !! i).
      { intros j Nj E. assert (X : existsb (fun j => negb (j =? i)%nat && bool_decide (a' !! j = a' !! i)) (seq 0 (length data)) = true); [|congruence].
        apply existsb_exists. exists j. split.
        - apply in_seq. split; [lia|]. cbn. apply (ci_range _ _ _ _ _ _ _ _ _ H'). apply (ci_seated _ _ _ _ _ _ _ _ _ H'). fold a'.
          destruct (a' !! j) eqn:Ej; [eauto|congruence].
        - apply andb_true_iff. split; [now apply negb_true_iff, Nat.eqb_neq|now apply bool_decide_eq_true]. }
      assert (Hit : forall L1 g xs L2, L = L1 ++ (g, xs) :: L2 -> same_clusters (<[i := g]> a0) a' <-> xs = []).
      { intros L1 g xs L2 EL. rewrite (Mem g xs) by (rewrite EL; apply in_app_iff; right; now left). split; intro X.
        - apply (sc_alone_inv a0 a' i A0 g X Al). - now apply sc_alone. }
      exists (List.filter (fun p => isnil (nth_error D (p - 0))) (seq 0 (length D))). split; [apply List.NoDup_filter, seq_NoDup|].
      assert (HD : forall p, (p < length L)%nat -> exists L1 g xs L2, L = L1 ++ (g, xs) :: L2 /\ length L1 = p /\ nth_error D p = Some xs).
      { intros p Hp. destruct (nth_error L p) as [[g xs]|] eqn:Ep; [|apply nth_error_None in Ep; lia].
        pose proof Ep as Ep'. apply nth_error_split in Ep as (M1 & M2 & EM & El). exists M1, g, xs, M2. split; [exact EM|]. split; [exact El|].
        unfold D. now rewrite nth_error_map, Ep'. }
      split.
      + intro p. rewrite List.filter_In, in_seq, Nat.sub_0_r. replace (length D) with (length L) by (unfold D; now rewrite map_length). split.
        * intros [[_ Hp] E]. cbn in Hp. split; [exact Hp|]. destruct (HD p Hp) as (L1 & g & xs & L2 & EL & <- & En).
          apply (Iff L1 g xs L2 EL), (Hit L1 g xs L2 EL). rewrite En in E. destruct xs; [reflexivity|discriminate].
        * intros [Hp Hc]. split; [cbn; lia|]. destruct (HD p Hp) as (L1 & g & xs & L2 & EL & <- & En).
          apply (Iff L1 g xs L2 EL), (Hit L1 g xs L2 EL) in Hc. subst xs. now rewrite En.
      + assert (Hz : In [] D).
        { pose proof (ci_sys _ _ _ _ _ _ _ _ _ H) as Hsy. pose proof (si_counts _ _ _ _ _ _ _ Hsy) as Hc.
          assert (Hz : In 0 (map csize L)) by (rewrite <- Hc; apply (pi_d _ _ (si_py _ _ _ _ _ _ _ Hsy))).
          apply in_map_iff in Hz as ([g xs] & E & Hz). unfold csize in E. cbn [snd] in E. destruct xs; [|cbn [length] in E; lia].
          unfold D. apply in_map_iff. exists (g, []). auto. }
        apply in_map_iff in Hz as ([g xs] & E & Hz). cbn [snd] in E. subst xs. apply in_split in Hz as (M1 & M2 & EM).
        assert (V : qscore D w [] = (Jrows (map snd L') - Jrows D + G0 - ln (INR (length D - length (full D))))%R).
        { apply (Val M1 g [] M2 EM). now apply (Hit M1 g [] M2 EM). }
        rewrite (const_sum _ (exp (qscore D w []))).
        * rewrite empties_length, V.
          assert (He : (0 < INR (length D - length (full D)))%R).
          { apply lt_0_INR. pose proof (count_empty L) as Ce. fold D in Ce. unfold D. rewrite map_length. fold D.
            assert (In 0 (map csize L)) as Hz by (rewrite EM, map_app; apply in_app_iff; right; now left). apply num_empty_In in Hz. lia. }
          rewrite <- (exp_ln (INR (length D - length (full D)))) at 1 by exact He. rewrite <- exp_plus. f_equal. lra.
        * intros p Hp. apply List.filter_In in Hp as [Hp E]. rewrite Nat.sub_0_r in E. destruct (nth_error D p) as [[|? ?]|] eqn:En; try discriminate.
          apply nth_error_split in En as (D1 & D2 & ED & <-). f_equal. rewrite ED at 2. now rewrite nth_map_mid.
  Qed.
End G.
