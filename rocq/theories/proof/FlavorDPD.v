(** Dirichlet-process-discrete: the C++ group and shared against the Python ones. *)
From Coq Require Import Reals Lra Lia Permutation.
From Verif.model Require Import Base Num NumR Component HistoryRun Sparse DPD DbgDPD.
From Verif.spec Require Import FlavorSpec LgammaSpec.
From Verif.proof Require Import BaseProof FlavorProof.
From stdpp Require Import gmap.
Local Open Scope Z_scope.

Section S.
  Variables (lg : R -> R) (dl : nat) (sh : dpd_shared R).
  #[local] Hint Extern 0 (Num R) => exact (NumR lg) : typeclass_instances.

  Definition known (v : Z) : Prop := v <> OTHER /\ is_Some (dp_betas sh !! v).
  Definition dpd_rel (g : counter) (p : py_dpd) : Prop :=
    cmap g = pdp_counts p /\ ctotal g = Some (pdp_total p) /\
    ((1 <= dl)%nat -> forall k c, pdp_counts p !! k = Some c -> known k).

  Lemma add_rel : forall g p v n r, dpd_rel g p -> ctr_add g v n = Ok r ->
    (exists p', py_dpd_rep sh p v n = Ok p' /\ dpd_rel r.1 p') \/ (~ known v /\ py_dpd_rep sh p v n = Fail).
  Proof.
    intros g p v n r (A & B & D) H. unfold py_dpd_rep.
    destruct (Z.eqb_spec v OTHER) as [->|Hv]; [right; split; [unfold known; tauto|reflexivity]|].
    destruct (dp_betas sh !! v) as [b|] eqn:E.
    2:{ right. split; [|reflexivity]. intros [_ K]. rewrite E in K. destruct K; discriminate. }
    left. assert (K : known v) by (split; [exact Hv|rewrite E; eauto]).
    unfold ctr_add in H. destruct (n =? 0); cbn [negb dassert obind].
    - injection H as <-. exists p. split; [reflexivity|]. now split.
    - rewrite B in H. cbn [ctr_bump] in H.
      destruct (i32 (pdp_total p + n)) as [t| |] eqn:Et; try discriminate. apply i32_ok in Et. subst t. cbn [obind] in H.
      rewrite A in H. destruct (pdp_counts p !! v) as [c|] eqn:Ec.
      + destruct (i32 (c + n)) as [c'| |] eqn:E2; try discriminate. apply i32_ok in E2. subst c'. cbn [obind] in H.
        rewrite (Z.add_comm n c). destruct (c + n =? 0); injection H as <-; cbn [negb]; eexists; (split; [reflexivity|]).
        all: split; [reflexivity|]; split; [reflexivity|]; cbn [pdp_counts]; intros Hd k x Hk.
        * apply lookup_delete_Some in Hk as [_ Hk]. now apply (D Hd k x).
        * destruct (decide (v = k)) as [->|Ne]; [exact K|]. rewrite lookup_insert_ne in Hk by exact Ne. now apply (D Hd k x).
      + injection H as <-. eexists; split; [reflexivity|].
        split; [reflexivity|]; split; [reflexivity|]; cbn [pdp_counts]; intros Hd k x Hk.
        destruct (decide (v = k)) as [->|Ne]; [exact K|]. rewrite lookup_insert_ne in Hk by exact Ne. now apply (D Hd k x).
  Qed.
  Lemma add_all_rel : forall order g p g1, dpd_rel g p -> ctr_add_all g order = Ok g1 ->
    ((1 <= dl)%nat -> List.Forall (fun kv => known kv.1) order) ->
    (exists p', py_dpd_rep_all sh p order = Ok p' /\ dpd_rel g1 p') \/ (dl = 0%nat /\ py_dpd_rep_all sh p order = Fail).
  Proof.
    induction order as [|[k v] order IH]; intros g p g1 HR H HK; cbn [ctr_add_all py_dpd_rep_all] in *.
    - injection H as <-. left. eauto.
    - destruct (ctr_add g k v) as [r| |] eqn:E; try discriminate. cbn [obind] in H.
      destruct (add_rel g p k v r HR E) as [(p' & -> & R')|[NK ->]]; cbn [obind].
      + apply (IH r.1 p' g1 R' H). intro Hd. specialize (HK Hd). now inversion HK.
      + right. split; [|reflexivity]. destruct dl; [reflexivity|]. exfalso. apply NK.
        specialize (HK ltac:(lia)). now inversion HK.
  Qed.
  Lemma check_known : forall v u, dpd_check dl sh v = Ok u -> (1 <= dl)%nat -> known v.
  Proof.
    intros v u H Hd. unfold dpd_check, dassert_at in H. rewrite (proj2 (Nat.leb_le 1 dl) Hd) in H.
    unfold sp_contains in H. unfold known.
    destruct (Z.eqb_spec v OTHER); cbn in H; [discriminate|]. split; [assumption|].
    destruct (dp_betas sh !! v); [eauto|discriminate].
  Qed.
  Lemma step_rel : forall g p v n, dpd_rel g p ->
    follows _ _ dpd_rel (dl = 0%nat) (let* _ := dpd_check dl sh v in let* r := ctr_add g v n in Ok r.1) (py_dpd_rep sh p v n).
  Proof.
    intros g p v n HR g1 H. destruct (dpd_check dl sh v) as [u| |] eqn:E; try discriminate. cbn [obind] in H.
    destruct (ctr_add g v n) as [r| |] eqn:E2; try discriminate. injection H as <-.
    destruct (add_rel g p v n r HR E2) as [X|[NK F]]; [now left|]. right. split; [|exact F].
    destruct dl eqn:Ed; [reflexivity|]. exfalso. apply NK. rewrite <- Ed in *. apply (check_known v u E). lia.
  Qed.
  Lemma dpd_sim : forall l g, hrun (DPD R) dl sh l = Ok g ->
    (exists p, hrun (PyDPD R) dl sh l = Ok p /\ dpd_rel g p) \/ (dl = 0%nat /\ hrun (PyDPD R) dl sh l = Fail).
  Proof.
    intros l g H.
    destruct (sim_of (DPD R) (PyDPD R) dl dl sh sh (fun _ => True) dpd_rel (dl = 0%nat)) with (l := l) (g := g)
      as [X|X]; try (left; exact X); try (right; exact X); try exact H.
    - split; [reflexivity|]. split; [reflexivity|]. intros _ k c Hk. cbn in Hk. now rewrite lookup_empty in Hk.
    - intros g0 p v _ HR. exact (step_rel g0 p v 1 HR).
    - intros g0 p v n _ HR. exact (step_rel g0 p v n HR).
    - intros g0 p v _ HR. exact (step_rel g0 p v (-1) HR).
    - intros g0 p g' p' HR (A' & B' & D') g1 E. cbn in E |- *. unfold dpd_merge, ctr_merge, py_dpd_merge in *.
      destruct (ctr_add_all g0 (map_to_list (cmap g'))) as [c1| |] eqn:E1; try discriminate. cbn [obind] in E.
      rewrite B' in E. rewrite A' in E1.
      destruct (add_all_rel _ g0 p c1 HR E1) as [(q & E2 & (A & B & D))|[Hd F]].
      + intro Hd. apply List.Forall_forall. intros [k c] Hk. apply elem_of_list_In, elem_of_map_to_list in Hk. exact (D' Hd k c Hk).
      + rewrite E2. cbn [obind]. left. rewrite B in E. cbn [ctr_bump] in E.
        destruct (i32 (pdp_total q + pdp_total p')) as [t| |] eqn:Et; try discriminate. apply i32_ok in Et. subst t.
        injection E as <-. eexists. split; [reflexivity|]. split; [exact A|]. split; [reflexivity|exact D].
      + right. rewrite F. auto.
    - now apply all_values_True.
  Qed.

  Local Open Scope R_scope.
  Lemma dpd_sv : forall g p v s t, dpd_rel g p -> dpd_score_value dl sh g v = Ok s -> py_dpd_score_value sh p v = Ok t -> s = t.
  Proof.
    intros g p v s t (A & B & _) H K. unfold dpd_score_value, py_dpd_score_value, ctr_get_total, ctr_get_count in *.
    rewrite B in H. rewrite A in H.
    destruct (v =? OTHER)%Z; cbn [obind] in *.
    - injection H as <-. injection K as <-. cbn. now rewrite (Rmult_comm (dp_alpha sh)).
    - destruct (dassert _); try discriminate. cbn [obind] in K. unfold sp_get, sp_find in H.
      destruct (dp_betas sh !! v) as [b|]; [|destruct (dassert_at _ _ _); discriminate]. cbn [obind] in *.
      injection H as <-. injection K as <-. cbn. rewrite (Rmult_comm (dp_alpha sh)).
      now destruct (pdp_counts p !! v).
  Qed.
  Lemma dpd_sv_total : forall g p v s, dpd_rel g p -> dpd_score_value dl sh g v = Ok s ->
    (forall c, pdp_counts p !! v = Some c -> (0 <= c)%Z) -> py_dpd_score_value sh p v = Ok s.
  Proof.
    intros g p v s (A & B & _) H Hc. unfold dpd_score_value, py_dpd_score_value, ctr_get_total, ctr_get_count in *.
    rewrite B, A in H.
    destruct (v =? OTHER)%Z; cbn [obind] in *; [rewrite <- H; cbn; now rewrite (Rmult_comm (dp_alpha sh))|].
    assert (Hc' : (0 <= match pdp_counts p !! v with Some c => c | None => 0 end)%Z)
      by (destruct (pdp_counts p !! v); [auto|lia]).
    rewrite (proj2 (Z.leb_le 0 _) Hc'). cbn [dassert obind]. unfold sp_get, sp_find in H.
    destruct (dp_betas sh !! v) as [b|]; [|destruct (dassert_at _ _ _); discriminate]. cbn [obind] in *. rewrite <- H.
    cbn. rewrite (Rmult_comm (dp_alpha sh)). now destruct (pdp_counts p !! v).
  Qed.
  Definition term (kv : Z * Z) : R :=
    match dp_betas sh !! kv.1 with Some b => lg (b * dp_alpha sh + IZR kv.2) - lg (b * dp_alpha sh) | None => 0 end.
  Definition rsum (l : list R) : R := fold_right Rplus 0 l.
  Lemma rsum_perm : forall l l', Permutation l l' -> rsum l = rsum l'.
  Proof. unfold rsum. induction 1; cbn [fold_right] in *; lra. Qed.
  Lemma loop_cpp : forall order s, List.Forall (fun kv => is_Some (dp_betas sh !! kv.1)) order ->
    dpd_score_loop dl sh order s = Ok (s + rsum (map term order)).
  Proof.
    induction order as [|[v c] order IH]; intros s H; cbn [dpd_score_loop map]; [cbn; f_equal; lra|].
    inversion H as [|? ? [b Hb] H']; subst. cbn [fst] in Hb. unfold sp_get, sp_find. rewrite Hb. cbn [obind].
    rewrite IH by exact H'. unfold rsum at 2. cbn [fold_right]. unfold term at 2. cbn [fst snd]. rewrite Hb.
    fold (rsum (map term order)). cbn. rewrite (Rmult_comm (dp_alpha sh) b). f_equal. lra.
  Qed.
  Lemma loop_py : forall order s, List.Forall (fun kv => (0 <= kv.2)%Z /\ is_Some (dp_betas sh !! kv.1)) order ->
    py_dpd_score_loop sh order s = Ok (s + rsum (map term order)).
  Proof.
    induction order as [|[v c] order IH]; intros s H; cbn [py_dpd_score_loop map]; [cbn; f_equal; lra|].
    inversion H as [|? ? [Hc [b Hb]] H']; subst. cbn [fst snd] in *. rewrite Hb. rewrite (proj2 (Z.leb_le 0 c)) by lia.
    cbn [dassert obind]. rewrite IH by exact H'. unfold rsum at 2. cbn [fold_right]. unfold term at 2. cbn [fst snd]. rewrite Hb.
    fold (rsum (map term order)). cbn. f_equal. lra.
  Qed.
  Lemma dpd_sd : forall g p oc op, dpd_rel g p ->
    Permutation oc (map_to_list (cmap g)) -> Permutation op (map_to_list (pdp_counts p)) ->
    (0 <= pdp_total p < 18446744073709551616)%Z -> dp_betas sh <> ∅ ->
    (forall k c, pdp_counts p !! k = Some c -> (0 <= c)%Z /\ is_Some (dp_betas sh !! k)) ->
    exists s, dpd_score_data dl sh g oc = Ok s /\ py_dpd_score_data sh p op = Ok s.
  Proof.
    intros g p oc op (A & B & _) Po Pp Ht Hb Hk. rewrite A in Po.
    assert (HF : forall o, Permutation o (map_to_list (pdp_counts p)) ->
      List.Forall (fun kv => (0 <= kv.2)%Z /\ is_Some (dp_betas sh !! kv.1)) o).
    { intros o Ho. apply List.Forall_forall. intros [k c] Hin. apply (Hk k c).
      apply elem_of_map_to_list, elem_of_list_In. eapply Permutation_in; eauto. }
    unfold dpd_score_data, py_dpd_score_data, ctr_get_total. rewrite B. cbn [obind].
    rewrite loop_cpp by (eapply List.Forall_impl; [|exact (HF oc Po)]; cbn; tauto).
    rewrite (proj2 (Nat.eqb_neq _ 0)) by (intro E; apply map_size_empty_inv in E; contradiction).
    cbn [negb dassert obind]. rewrite loop_py by exact (HF op Pp). cbn [obind].
    unfold as_size. rewrite Z.mod_small by exact Ht. eexists. split; [reflexivity|]. f_equal.
    rewrite (rsum_perm (map term op) (map term oc)); [reflexivity|]. apply Permutation_map.
    etransitivity; [exact Pp|]. now symmetry.
  Qed.
End S.

(** ** Shared *)
Section Shared.
  Variables (lg : R -> R) (dl : nat).
  #[local] Hint Extern 0 (Num R) => exact (NumR lg) : typeclass_instances.
  Local Open Scope R_scope.

  Definition dps_rel (sh : dpd_shared R) (p : py_dps R) : Prop :=
    dp_gamma sh = pds_gamma p /\ dp_alpha sh = pds_alpha p /\ dp_beta0 sh = pds_beta0 p /\
    dp_betas sh = pds_betas p /\ cmap (dp_counts sh) = pds_counts p /\
    (forall k c, pds_counts p !! k = Some c -> (0 < c)%Z) /\ (forall k, is_Some (pds_counts p !! k) <-> is_Some (pds_betas p !! k)).

  Lemma fmax_id : forall a b, a <= b -> fmax (N:=NumR lg) a b = b.
  Proof. intros a b H. unfold fmax. cbn. unfold rltb. destruct (Rlt_dec a b); lra. Qed.
  Lemma fmin_id : forall a b, b <= a -> fmin (N:=NumR lg) a b = b.
  Proof. intros a b H. unfold fmin. cbn. unfold rltb. destruct (Rlt_dec b a); lra. Qed.

  Lemma dps_add_rel : forall sh p v u sh', dps_rel sh p -> v <> OTHER -> dps_add dl sh v u = Ok sh' ->
    1 / 1000000 <= dp_beta0 sh - dp_beta0 sh * u ->
    exists p', py_dps_add p v u = Ok p' /\ dps_rel sh' p'.
  Proof.
    intros sh p v u sh' (G1 & G2 & G3 & G4 & G5 & G6 & G7) Hv H Hb.
    unfold dps_add in H. destruct (dassert_at _ _ _); try discriminate. cbn [obind] in H.
    unfold py_dps_add. rewrite (proj2 (Z.eqb_neq _ _) Hv). cbn [negb dassert obind].
    unfold ctr_add in H. change (1 =? 0)%Z with false in H. cbn iota in H.
    destruct (ctr_bump _ _) as [t| |]; try discriminate. cbn [obind] in H. rewrite G5 in H.
    destruct (pds_counts p !! v) as [c|] eqn:Ec.
    - pose proof (G6 v c Ec) as Hpos. destruct (i32 (c + 1)) as [c'| |] eqn:E; try discriminate. apply i32_ok in E. subst c'.
      cbn [obind] in H. destruct (Z.eqb_spec (c + 1) 0); [lia|]. cbn [obind snd fst] in H.
      destruct (Z.eqb_spec (c + 1) 1); [lia|]. injection H as <-. eexists. split; [reflexivity|].
      repeat (split; [assumption || (cbn; congruence)|]). split; cbn.
      + intros k x. destruct (decide (v = k)) as [->|Ne]; [rewrite lookup_insert; intros [= <-]; lia|].
        rewrite lookup_insert_ne by exact Ne. apply G6.
      + intro k. destruct (decide (v = k)) as [->|Ne]; [rewrite lookup_insert|rewrite lookup_insert_ne by exact Ne; apply G7].
        rewrite <- G7, Ec. split; eauto.
    - cbn [obind snd fst] in H. change (1 =? 1)%Z with true in H. cbn iota in H. change (0 + 1)%Z with 1%Z. change (1 =? 1)%Z with true. cbn iota.
      destruct (dassert _); try discriminate. cbn [obind] in H.
      assert (Hn : dp_betas sh !! v = None).
      { rewrite G4. destruct (pds_betas p !! v) eqn:E; [|reflexivity]. exfalso.
        assert (is_Some (pds_counts p !! v)) by (apply G7; rewrite E; eauto). rewrite Ec in *. now apply is_Some_None in H0. }
      unfold sp_add, um_insert in H. rewrite Hn in H. destruct (dassert_at _ _ _); try discriminate. cbn [obind] in H.
      injection H as <-. eexists. split; [reflexivity|].
      cbn [nmul nsub NumR] in *. unfold min_beta. cbn [nlit NumR] in *. cbn [nof NumR].
      rewrite fmax_id by lra. rewrite fmax_id by (rewrite <- G3; lra).
      unfold dps_rel. cbn [dp_gamma dp_alpha dp_beta0 dp_betas dp_counts cmap pds_gamma pds_alpha pds_beta0 pds_betas pds_counts].
      repeat (split; [first [assumption|congruence]|]). split.
      + intros k x. destruct (decide (v = k)) as [->|Ne]; [rewrite lookup_insert; intros [= <-]; lia|].
        rewrite lookup_insert_ne by exact Ne. apply G6.
      + intro k. destruct (decide (v = k)) as [->|Ne]; [rewrite !lookup_insert; split; eauto|].
        rewrite !lookup_insert_ne by exact Ne. apply G7.
  Qed.
  Lemma dps_remove_rel : forall sh p v sh', dps_rel sh p -> v <> OTHER -> dps_remove dl sh v = Ok sh' ->
    is_Some (dp_betas sh !! v) ->
    (forall b, dp_betas sh !! v = Some b -> dp_beta0 sh + b <= 1) ->
    exists p', py_dps_remove p v = Ok p' /\ dps_rel sh' p'.
  Proof.
    intros sh p v sh' (G1 & G2 & G3 & G4 & G5 & G6 & G7) Hv H Hk Hb.
    unfold dps_remove in H. destruct (dassert_at _ _ _); try discriminate. cbn [obind] in H.
    unfold py_dps_remove. rewrite (proj2 (Z.eqb_neq _ _) Hv). cbn [negb dassert obind].
    unfold ctr_remove, ctr_add in H. change (-1 =? 0)%Z with false in H. cbn iota in H.
    destruct (ctr_bump _ _) as [t| |]; try discriminate. cbn [obind] in H. rewrite G5 in H.
    assert (Hk' : is_Some (pds_counts p !! v)) by (apply G7; now rewrite <- G4).
    destruct (pds_counts p !! v) as [c|] eqn:Ec; [|now apply is_Some_None in Hk'].
    pose proof (G6 v c Ec) as Hpos.
    destruct (i32 (c + -1)) as [c'| |] eqn:E; try discriminate. apply i32_ok in E. subst c'. cbn [obind] in H.
    change (c - 1)%Z with (c + -1)%Z. destruct (Z.eqb_spec (c + -1) 0) as [E0|E0]; cbn [negb obind fst snd] in *.
    - rewrite (proj2 (Z.eqb_eq _ _) E0) in H. unfold sp_pop, sp_find in H. rewrite <- G4.
      destruct (dp_betas sh !! v) as [b|] eqn:Eb; [|now apply is_Some_None in Hk]. cbn [obind fst snd] in H.
      injection H as <-. eexists. split; [reflexivity|].
      specialize (Hb b eq_refl). cbn [nadd nlit NumR]. rewrite fmin_id by lra.
      unfold dps_rel. cbn [dp_gamma dp_alpha dp_beta0 dp_betas dp_counts cmap pds_gamma pds_alpha pds_beta0 pds_betas pds_counts].
      repeat (split; [first [assumption|congruence]|]). split.
      + intros k x Hd. apply lookup_delete_Some in Hd as [_ Hd]. now apply (G6 k).
      + intro k. destruct (decide (v = k)) as [->|Ne]; [rewrite !lookup_delete; split; intro X; now apply is_Some_None in X|].
        rewrite !lookup_delete_ne by exact Ne. rewrite G4. apply G7.
    - rewrite (proj2 (Z.eqb_neq _ _) E0) in H. injection H as <-. eexists. split; [reflexivity|].
      unfold dps_rel. cbn [dp_gamma dp_alpha dp_beta0 dp_betas dp_counts cmap pds_gamma pds_alpha pds_beta0 pds_betas pds_counts].
      repeat (split; [first [assumption|congruence]|]). split.
      + intros k x. destruct (decide (v = k)) as [->|Ne]; [rewrite lookup_insert; intros [= <-]; lia|].
        rewrite lookup_insert_ne by exact Ne. apply G6.
      + intro k. destruct (decide (v = k)) as [->|Ne]; [rewrite lookup_insert|rewrite lookup_insert_ne by exact Ne; apply G7].
        rewrite <- G7, Ec. split; eauto.
  Qed.
End Shared.
