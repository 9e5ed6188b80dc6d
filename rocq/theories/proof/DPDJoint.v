(** The mixture and its shared, used together. *)
From Coq Require Import Permutation Reals Lra.
From Verif.spec Require Import GroupSpec GaussSpec SharedSpec SlaveSpec JointSpec.
From Verif.model Require Import Base Packed Num NumR VectorMath Component Slave SlaveRun Sparse DPD SharedRun JointRun.
From Verif.proof Require Import BaseProof VectorProof PackedProof LoopProof GroupProof SlaveProof.
From stdpp Require Import gmap.
From Verif.proof Require Import MapSum DPDProof DPDScore DPDShared DPDSlave DPDSlaveRun.

Lemma tot_uses data v : tot data v = Z.of_nat (uses data v).
Proof.
  unfold uses. induction data as [|xs data IH]; [reflexivity|]. cbn [concat]. rewrite tot_cons, IH, count_occ_app. unfold zcount. lia.
Qed.
Lemma sub_length xs : forall l, (forall v, (zcount xs v <= zcount l v)%Z) -> (length xs <= length l)%nat.
Proof.
  induction xs as [|x xs IH]; intros l H; [cbn; lia|].
  assert (Hx : In x l).
  { apply zcount_pos. specialize (H x). rewrite zcount_cons, Z.eqb_refl in H. pose proof (zcount_nonneg xs x). lia. }
  apply in_split in Hx as (l1 & l2 & ->). rewrite app_length. cbn [length].
  assert (length xs <= length (l1 ++ l2))%nat; [|rewrite app_length in *; lia].
  apply IH. intro v. specialize (H v). rewrite zcount_cons in H.
  rewrite (zcount_perm _ _ v (Permutation_sym (Permutation_middle l1 l2 x))), zcount_cons in H. destruct (Z.eqb_spec v x) as [E|]; [subst v|]; lia.
Qed.

Section S.
  Variable lg : R -> R.
  #[local] Hint Extern 0 (Num R) => exact (NumR lg) : typeclass_instances.
  Variable dl : nat.
  Notation SV := (dpd_vscorer (F:=R) (N:=NumR lg)).
  Implicit Types (sh : dpd_shared R) (data : list (list Z)) (s : slave SV) (l : list Z).

  Lemma HzR : forall x : R, nadd x (nof 0%Z) = x.
  Proof. intro x. cbn [nadd nof NumR]. apply Rplus_0_r. Qed.

  Local Open Scope R_scope.
  Lemma dfast_eq sh xs v : 0 < dp_alpha sh -> positive_betas sh -> dpd_known sh v \/ v = OTHER /\ 0 < dp_beta0 sh ->
    dpd_score_value dl sh (dpd_stat xs) v = Ok (dfast sh xs v).
  Proof.
    intros Ha Hb Hv. assert (Hn : 0 <= IZR (Z.of_nat (length xs))) by (apply (IZR_le 0); lia).
    assert (Hc : 0 <= IZR (zcount xs v)) by (apply (IZR_le 0), zcount_nonneg).
    unfold dfast. destruct Hv as [Hv|[-> H0]].
    - rewrite (dpd_score_value_eq lg) by exact Hv. f_equal. rewrite (proj2 (Z.eqb_neq _ _) (proj1 Hv)).
      pose proof (known_pos sh v Hb Hv) as Hp. unfold beta_of in *. destruct Hv as [_ Hv]. destruct (dp_betas sh !! v) as [b|]; [|congruence].
      unfold ent, shf. cbn [nsub nlog nadd nmul nof NumR]. unfold Rdiv. assert (0 < dp_alpha sh * b) by now apply Rmult_lt_0_compat.
      rewrite ln_mult by (try apply Rinv_0_lt_compat; lra). rewrite ln_Rinv by lra. lra.
    - rewrite (dpd_score_other_eq lg). f_equal. rewrite Z.eqb_refl. unfold shf. cbn [nsub nlog nadd nmul nof NumR]. unfold Rdiv.
      assert (0 < dp_alpha sh * dp_beta0 sh) by now apply Rmult_lt_0_compat.
      rewrite ln_mult by (try apply Rinv_0_lt_compat; lra). rewrite ln_Rinv by lra. lra.
  Qed.

  (** The joint invariant. *)
  Record jinv sh s l data : Prop := {
    ji_shared : counts_values sh l;
    ji_beta0 : 0 < dp_beta0 sh;
    ji_groups : grp s = map dpd_stat data;
    ji_cache : vsinv sh data (vst s);
    ji_refs : exact_refs data (vst s);
    ji_sub : forall v, (tot data v <= zcount l v)%Z }.

  Lemma sub_known sh l data : counts_values sh l -> (forall v, (tot data v <= zcount l v)%Z) -> known_data sh data.
  Proof.
    intros H Hs. unfold known_data. apply List.Forall_forall. intros xs Hx. apply in_split in Hx as (d1 & d2 & ->).
    assert (Hle : forall v, (zcount xs v <= zcount l v)%Z).
    { intro v. specialize (Hs v). rewrite tot_app, tot_cons in Hs. pose proof (tot_nonneg d1 v). pose proof (tot_nonneg d2 v). lia. }
    split.
    - pose proof (cv_short _ _ H) as X. pose proof (sub_length _ _ Hle). unfold short in *. lia.
    - apply List.Forall_forall. intros v Hv. apply zcount_pos in Hv. assert (Hl : In v l) by (apply zcount_pos; specialize (Hle v); lia).
      split; [intros ->; now apply (cv_other _ _ H)|]. now apply (cv_keys _ _ H).
  Qed.
  Lemma vsinv_shared sh sh' data t : vsinv sh data t -> exact_refs data t -> dp_alpha sh' = dp_alpha sh ->
    (forall v, tot data v <> 0%Z -> dp_betas sh' !! v = dp_betas sh !! v) -> vsinv sh' data t.
  Proof.
    intros H He Ha Hb. split.
    - rewrite (vi_shift _ _ _ H). apply map_ext. intro xs. unfold shf. now rewrite Ha.
    - intros v r s E. destruct (vi_entry _ _ _ H _ _ _ E) as (b & Eb & -> & Hr). exists b. split; [|split; [|exact Hr]].
      + rewrite Hb; [exact Eb|]. apply He. unfold has. congruence.
      + apply map_ext. intro xs. unfold ent. now rewrite Ha.
    - apply (vi_none _ _ _ H).
  Qed.

  Lemma joint_ok ops : forall sh s l data l' data', jinv sh s l data -> jhistory l data ops l' data' ->
    exists sh' s', joint_run dl sh s ops = Ok (sh', s') /\ jinv sh' s' l' data' /\
      dp_alpha sh' = dp_alpha sh /\ dp_gamma sh' = dp_gamma sh.
  Proof.
    induction ops as [|o ops IH]; intros sh s l data l' data' J Hh; inversion Hh; subst; cbn [joint_run].
    - exists sh, s. auto.
    - (* shared add *)
      cbn [dps_run1]. destruct (In_dec BinInt.Z.eq_dec v l) as [Hv|Hv].
      + destruct (dps_add_old lg dl sh l v u (ji_shared _ _ _ _ J) Hv) as [E G]; auto. rewrite E. cbn [obind].
        match type of G with counts_values ?x _ => set (sh1 := x) in * end.
        destruct (IH sh1 s (v :: l) data l' data') as (sh' & s' & E' & J' & A1 & A2); auto.
        * destruct J as [J1 J2 J3 J4 J5 J6]. split; auto.
          -- apply (vsinv_shared sh); auto.
          -- intro w. specialize (J6 w). rewrite zcount_cons. destruct (Z.eqb_spec w v) as [Ew|]; [subst w|]; lia.
        * exists sh', s'. auto.
      + destruct (dps_add_new lg dl sh l v u (ji_shared _ _ _ _ J) Hv) as (E & G & _); auto; [apply (ji_beta0 _ _ _ _ J)|tauto|]. rewrite E. cbn [obind].
        match type of G with counts_values ?x _ => set (sh1 := x) in * end.
        destruct (IH sh1 s (v :: l) data l' data') as (sh' & s' & E' & J' & A1 & A2); auto.
        * destruct J as [J1 J2 J3 J4 J5 J6]. split; auto.
          -- exact (Rlt_le_trans _ _ _ MB_pos (Rmax_l _ _)).
          -- apply (vsinv_shared sh); auto. intros w Hw. cbn [sh1 dp_betas]. apply lookup_insert_ne. intros ->.
             specialize (J6 w). rewrite (zcount_absent _ _ Hv) in J6. pose proof (tot_nonneg data w). lia.
          -- intro w. specialize (J6 w). rewrite zcount_cons. destruct (Z.eqb_spec w v) as [Ew|]; [subst w|]; lia.
        * exists sh', s'. auto.
    - (* shared remove *)
      match goal with H : forall w, (uses data w <= _)%nat |- _ => rename H into Hsub end.
      cbn [dps_run1]. pose proof (Permutation_sym (Permutation_middle l1 l2 v)) as P.
      destruct J as [J1 J2 J3 J4 J5 J6].
      destruct (dps_remove_ok lg dl sh (l1 ++ l2) v (counts_perm _ _ _ P J1)) as (sh1 & E & G & A1 & A2 & A3); [|lra|].
      { intros ->. apply (cv_other _ _ J1), in_app_iff. right. now left. }
      rewrite E. cbn [obind].
      assert (Hs : forall w, (tot data w <= zcount (l1 ++ l2) w)%Z) by (intro w; rewrite tot_uses; unfold zcount; specialize (Hsub w); lia).
      destruct (IH sh1 s (l1 ++ l2) data l' data') as (sh' & s' & E' & J' & B1 & B2); auto.
      + split; auto.
        * destruct A3 as [(_ & -> & _)|(_ & b & Eb & -> & _)]; [exact J2|]. apply (cv_pos _ _ J1) in Eb. apply Rmin_glb_lt; lra.
        * apply (vsinv_shared sh); auto. intros w Hw. destruct A3 as [(_ & _ & ->)|(Hn & b & Eb & _ & ->)]; [reflexivity|].
          apply lookup_delete_ne. intros ->. specialize (Hs w). rewrite (zcount_absent _ _ Hn) in Hs. pose proof (tot_nonneg data w). lia.
      + exists sh', s'. split; [exact E'|]. split; [exact J'|]. split; congruence.
    - (* mixture *)
      match goal with H : forall w, (uses data1 w <= _)%nat |- _ => rename H into Hsub end.
      match goal with H : forall i, _ = SRemGroup i -> _ |- _ => rename H into Hemp end.
      match goal with H : sstep data _ data1 |- _ => rename H into Hst end.
      destruct J as [J1 J2 J3 J4 J5 J6].
      assert (Hs : forall w, (tot data1 w <= zcount l w)%Z) by (intro w; rewrite tot_uses; unfold zcount; specialize (Hsub w); lia).
      destruct (step_data dl HzR sh data s _ data1 J3 J4 Hst (sub_known _ _ _ J1 J6) (sub_known _ _ _ J1 Hs)) as (s1 & E & G1 & G2 & _ & G3).
      { intro v. destruct (J5 v) as [-> _]. specialize (J6 v). pose proof (zcount_le l v). pose proof (cv_short _ _ J1) as X. unfold short in X. lia. }
      rewrite E. cbn [obind]. destruct (IH sh s1 l data1 l' data') as (sh' & s' & E' & J' & B1 & B2); auto.
      + split; auto. apply G3; [exact J5|]. destruct o0; cbn; auto.
      + exists sh', s'. auto.
  Qed.
End S.
