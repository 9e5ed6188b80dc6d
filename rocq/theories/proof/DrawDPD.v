(** Sampler of the Dirichlet-process-discrete model: the law of its draws. *)
From Coq Require Import List Reals Lra Lia Permutation.
From Coquelicot Require Import Coquelicot.
From Verif.spec Require Import DrawSpec PartitionSpec RandomSpec GroupSpec.
From Verif.model Require Import Base Num NumR Component Random Slave Sparse DPD GroupSampler.
From Verif.proof Require Import BaseProof GroupProof RandomProof DirichletLaw DrawProof DrawDD.
From stdpp Require Import gmap.
From Verif.proof Require Import MapSum DPDProof DPDScore.
Local Open Scope R_scope.

Lemma rsum_same l : GaussSpec.rsum l = rsum l.
Proof. induction l as [|x l IH]; cbn; [reflexivity | now rewrite IH]. Qed.

Fixpoint posz (v : Z) (l : list Z) : nat :=
  match l with [] => 0%nat | w :: t => if (v =? w)%Z then 0%nat else S (posz v t) end.
Lemma posz_lt v l : In v l -> (posz v l < length l)%nat.
Proof.
  induction l as [|w l IH]; cbn; [tauto |]. destruct (Z.eqb_spec v w) as [->|Ne]; [lia |]. intros [->|H]; [congruence |].
  specialize (IH H). lia.
Qed.
Lemma posz_nth v l : In v l -> nth_error l (posz v l) = Some v.
Proof.
  induction l as [|w l IH]; cbn; [tauto |]. destruct (Z.eqb_spec v w) as [->|Ne]; [reflexivity |]. intros [->|H]; [congruence |].
  cbn. now apply IH.
Qed.
Lemma posz_only v l i : List.NoDup l -> nth_error l i = Some v -> i = posz v l.
Proof.
  intros ND E. assert (In v l) as Hi by (eapply nth_error_In; eauto).
  eapply (proj1 (NoDup_nth_error l) ND); [apply nth_error_Some; congruence |]. now rewrite E, posz_nth.
Qed.

Section S.
  Variable lg : R -> R.
  #[local] Hint Extern 0 (Num R) => exact (NumR lg) : typeclass_instances.

  Definition dpd_values (sh : dpd_shared R) (order : list (Z * R)) : list Z :=
    map fst order ++ (if rltb 0 (dp_beta0 sh) then [OTHER] else []).
  Definition dpd_shapes (sh : dpd_shared R) (order : list (Z * R)) (g : counter) : list R :=
    map (fun kv => kv.2 * dp_alpha sh + IZR (ctr_get_count g kv.1)) order ++
    (if rltb 0 (dp_beta0 sh) then [dp_beta0 sh * dp_alpha sh] else []).
  Lemma dpd_probs_eq sh g order : dpd_sampler_probs sh g order = (dpd_shapes sh order g, dpd_values sh order).
  Proof.
    unfold dpd_sampler_probs, dpd_shapes, dpd_values. cbn [nltb nof nmul nadd NumR]. destruct (rltb 0 (dp_beta0 sh)); [reflexivity |].
    now rewrite !app_nil_r.
  Qed.
  Lemma dpd_shapes_len sh order g : length (dpd_shapes sh order g) = length (dpd_values sh order).
  Proof. unfold dpd_shapes, dpd_values. rewrite !app_length, !map_length. destruct (rltb _ _); reflexivity. Qed.

  Section One.
    Variables (dl : nat) (sh : dpd_shared R) (order : list (Z * R)).
    Hypothesis Ha : 0 < dp_alpha sh.
    Hypothesis Hb : positive_betas sh.
    Hypothesis H0 : 0 <= dp_beta0 sh.
    Hypothesis Hm : dpd_mass sh = 1.
    Hypothesis HO : dp_betas sh !! OTHER = None.
    Hypothesis Hord : Permutation order (map_to_list (dp_betas sh)).

    Lemma other_fresh : ~ In OTHER (map fst order).
    Proof using All. rewrite (in_keys _ _ _ Hord). congruence. Qed.
    Lemma values_nodup : List.NoDup (dpd_values sh order).
    Proof using All.
      unfold dpd_values. pose proof (nodup_keys _ _ Hord) as ND. destruct (rltb _ _); [| now rewrite app_nil_r].
      apply (Permutation_NoDup (Permutation_cons_append _ _)). constructor; [apply other_fresh | exact ND].
    Qed.
    Lemma shapes_sum l : drawn_from (dpd_known sh) l ->
      rsum (dpd_shapes sh order (dpd_stat l)) = dp_alpha sh + IZR (Z.of_nat (length l)).
    Proof using All.
      intros [_ Hl]. unfold dpd_shapes. rewrite rsum_app.
      assert (rsum (map (fun kv => kv.2 * dp_alpha sh + IZR (ctr_get_count (dpd_stat l) kv.1)) order) =
              dp_alpha sh * msum (fun _ b => b) (dp_betas sh) + IZR (Z.of_nat (length l))) as ->.
      { rewrite <- rsum_same, (msum_order (fun v b => b * dp_alpha sh + IZR (ctr_get_count (dpd_stat l) v)) _ _ Hord).
        rewrite (msum_ext _ (fun v b => dp_alpha sh * b + IZR (zcount l v))) by (intros; rewrite dmap_get; lra).
        rewrite msum_plus, msum_scal, msum_counts; [reflexivity |].
        eapply List.Forall_impl; [| exact Hl]. intros v [_ H]. exact H. }
      unfold dpd_mass in Hm. unfold rltb. destruct (Rlt_dec 0 (dp_beta0 sh)) as [P | NP].
      - cbn [rsum]. nra.
      - assert (dp_beta0 sh = 0) by lra. cbn [rsum]. nra.
    Qed.
    Lemma shapes_pos l : List.Forall (fun a => 0 < a) (dpd_shapes sh order (dpd_stat l)).
    Proof using All.
      unfold dpd_shapes. apply List.Forall_app. split.
      - apply List.Forall_map, List.Forall_forall. intros [v b] Hi. apply (in_order _ _ _ _ Hord) in Hi. cbn [fst snd].
        rewrite dmap_get. assert (0 <= IZR (zcount l v)) by (apply (IZR_le 0), zcount_nonneg).
        specialize (Hb v b Hi). nra.
      - unfold rltb. destruct (Rlt_dec 0 (dp_beta0 sh)); repeat constructor. nra.
    Qed.
    Lemma shapes_ne l : drawn_from (dpd_known sh) l -> dpd_shapes sh order (dpd_stat l) <> [].
    Proof using All.
      intros Hl E. pose proof (shapes_sum l Hl) as S. rewrite E in S. cbn [rsum] in S.
      assert (0 <= IZR (Z.of_nat (length l))) by (apply (IZR_le 0); lia). lra.
    Qed.
    Lemma shapes_nth l v : In v (dpd_values sh order) ->
      nth (posz v (dpd_values sh order)) (dpd_shapes sh order (dpd_stat l)) 0 =
      if (v =? OTHER)%Z then dp_beta0 sh * dp_alpha sh else beta_of sh v * dp_alpha sh + IZR (zcount l v).
    Proof using All.
      intros Hi. pose proof (posz_nth _ _ Hi) as E. set (i := posz v (dpd_values sh order)) in *.
      unfold dpd_values in E. unfold dpd_shapes.
      destruct (Nat.lt_ge_cases i (length order)) as [Hlt | Hge].
      - rewrite nth_error_app1 in E by (now rewrite map_length). rewrite app_nth1 by (now rewrite map_length).
        rewrite nth_error_map in E. destruct (nth_error order i) as [[w b] |] eqn:Eo; [| discriminate]. cbn in E. injection E as ->.
        apply nth_error_nth. rewrite nth_error_map, Eo. cbn [option_map fst snd fmap]. rewrite dmap_get.
        assert (dp_betas sh !! v = Some b) as Eb by (apply (in_order _ _ _ _ Hord); eapply nth_error_In; eauto).
        destruct (Z.eqb_spec v OTHER) as [->|]; [congruence |]. unfold beta_of. now rewrite Eb.
      - rewrite nth_error_app2 in E by (now rewrite map_length). rewrite app_nth2 by (now rewrite map_length).
        rewrite map_length in *. destruct (rltb 0 (dp_beta0 sh)); [| destruct (i - length order)%nat; discriminate].
        destruct (i - length order)%nat as [|k]; [| destruct k; discriminate]. cbn in E. injection E as <-. reflexivity.
    Qed.
    Lemma values_in v : In v (dpd_values sh order) <-> dp_betas sh !! v <> None \/ v = OTHER /\ 0 < dp_beta0 sh.
    Proof using All.
      unfold dpd_values. rewrite in_app_iff, (in_keys _ _ _ Hord). unfold rltb. destruct (Rlt_dec 0 (dp_beta0 sh)); cbn; intuition; try lra.
    Qed.

    Lemma dpd_score_urn l v s : drawn_from (dpd_known sh) l -> In v (dpd_values sh order) ->
      dpd_score_value dl sh (dpd_stat l) v = Ok s ->
      exp s = nth (posz v (dpd_values sh order)) (dpd_shapes sh order (dpd_stat l)) 0 / rsum (dpd_shapes sh order (dpd_stat l)).
    Proof using All.
      intros Hl Hi ES. rewrite shapes_sum by exact Hl.
      assert (0 < nth (posz v (dpd_values sh order)) (dpd_shapes sh order (dpd_stat l)) 0) as HP.
      { apply (proj1 (List.Forall_forall _ _) (shapes_pos l)). apply nth_In. rewrite dpd_shapes_len. now apply posz_lt. }
      rewrite shapes_nth in * by exact Hi.
      assert (0 <= IZR (Z.of_nat (length l))) by (apply (IZR_le 0); lia).
      apply values_in in Hi. destruct (Z.eqb_spec v OTHER) as [-> | Ne].
      - pose proof (dpd_score_other_eq lg dl sh l) as E. rewrite E in ES. apply ok_inj in ES. subst s.
        rewrite exp_ln; [f_equal; ring |]. apply Rdiv_lt_0_compat; nra.
      - destruct Hi as [Hi | [Hi _]]; [| contradiction].
        pose proof (dpd_score_value_eq lg dl sh l v (conj Ne Hi)) as E. rewrite E in ES. apply ok_inj in ES. subst s.
        rewrite exp_ln; [f_equal; ring |]. apply Rdiv_lt_0_compat; nra.
    Qed.
    Lemma dpd_step_urn l v g' : drawn_from (dpd_known sh) l -> dpd_known sh v -> dpd_add dl sh (dpd_stat l) v = Ok g' ->
      g' = dpd_stat (v :: l) /\ drawn_from (dpd_known sh) (v :: l).
    Proof using All.
      intros Hl Hk EA. assert (drawn_from (dpd_known sh) (v :: l)) as Hl'.
      { split; [| constructor; [exact Hk | apply Hl]]. unfold dpd_add in EA. rewrite dpd_check_ok in EA by exact Hk. cbn [obind] in EA.
        unfold ctr_add in EA. cbn [Z.eqb] in EA. unfold ctr_bump, dpd_stat in EA. cbn [ctotal] in EA.
        unfold i32 at 1 in EA. destruct (_ && _)%bool eqn:E in EA; [| discriminate].
        apply andb_true_iff in E as [_ E]. apply BinInt.Z.leb_le in E. unfold short. cbn [length]. unfold i32_max in E. lia. }
      split; [| exact Hl']. pose proof (dpd_add_stat dl sh l v Hl') as E. cbn in E. unfold dpd_add in *. rewrite E in EA. now apply ok_inj in EA.
    Qed.
    Lemma shapes_bump l v : dpd_known sh v ->
      dpd_shapes sh order (dpd_stat (v :: l)) = bump (dpd_shapes sh order (dpd_stat l)) (posz v (dpd_values sh order)).
    Proof using All.
      intros Hk. assert (In v (dpd_values sh order)) as Hi by (apply values_in; left; apply Hk).
      apply list_ext; [now rewrite bump_length, !dpd_shapes_len |]. intros j Hj. rewrite dpd_shapes_len in Hj.
      rewrite bump_nth by (rewrite dpd_shapes_len; now apply posz_lt).
      assert (exists w, nth_error (dpd_values sh order) j = Some w) as (w & Ew).
      { destruct (nth_error (dpd_values sh order) j) eqn:E; [eauto |]. apply nth_error_None in E. lia. }
      pose proof (posz_only _ _ _ values_nodup Ew) as ->. assert (In w (dpd_values sh order)) as Hw by (eapply nth_error_In; eauto).
      rewrite !shapes_nth by exact Hw. unfold kron. destruct (Z.eqb_spec w OTHER) as [-> | Ne].
      - destruct (Nat.eqb_spec (posz v (dpd_values sh order)) (posz OTHER (dpd_values sh order))) as [E | _]; [| lra]. exfalso.
        pose proof (posz_nth _ _ Hi) as E1. rewrite E, (posz_nth _ _ Hw) in E1. injection E1 as E1. now apply (proj1 Hk).
      - rewrite zcount_cons. destruct (Nat.eqb_spec (posz v (dpd_values sh order)) (posz w (dpd_values sh order))) as [E | NE].
        + pose proof (posz_nth _ _ Hi) as E1. rewrite E, (posz_nth _ _ Hw) in E1. injection E1 as ->. rewrite Z.eqb_refl, plus_IZR. lra.
        + destruct (Z.eqb_spec w v) as [-> | _]; [congruence |]. lra.
    Qed.

    (** what can be drawn: listed values, and the unlisted one (which cannot then be added) at the end *)
    Definition drawable (vs : list Z) : Prop :=
      List.Forall (fun v => dp_betas sh !! v <> None \/ v = OTHER /\ 0 < dp_beta0 sh) vs /\ ~ In OTHER (removelast vs).
    Lemma dpd_polya vs l r : drawn_from (dpd_known sh) l -> drawable vs ->
      predicted (fun g v s => dpd_score_value dl sh g v = Ok s) (fun g v g' => dpd_add dl sh g v = Ok g') (dpd_stat l) vs r ->
      r = polya (dpd_shapes sh order (dpd_stat l)) (map (fun v => posz v (dpd_values sh order)) vs).
    Proof using All.
      intros Hl [Hd1 Hd2] HL.
      pose (sc := fun g v s => dpd_score_value dl sh g v = Ok s /\ In v (dpd_values sh order)).
      assert (predicted sc (fun g v g' => dpd_add dl sh g v = Ok g') (dpd_stat l) vs r) as HL'.
      { clear Hl Hd2. induction HL; [constructor | |]; inversion Hd1; subst.
        - constructor. split; [assumption | now apply values_in].
        - econstructor; [split; [eassumption | now apply values_in] | eassumption | auto]. }
      refine (proj2 (predicted_polya sc (fun g v g' => dpd_add dl sh g v = Ok g') (dpd_shapes sh order) (fun v => posz v (dpd_values sh order))
        (fun v => v <> OTHER) (fun g => exists k, g = dpd_stat k /\ drawn_from (dpd_known sh) k) _ _ _ _ _ HL' _ _)).
      - intros g v s [ES Hi] (k & -> & Hk). split; [rewrite dpd_shapes_len; now apply posz_lt | now apply dpd_score_urn].
      - intros g v s g' [ES Hi] Hv EA (k & -> & Hk). apply values_in in Hi. destruct Hi as [Hi | [Hi _]]; [| contradiction].
        destruct (dpd_step_urn k v g' Hk (conj Hv Hi) EA) as [-> Hk']. split; [eauto |]. now apply shapes_bump.
      - eauto.
      - apply List.Forall_forall. intros v Hv ->. contradiction.
    Qed.

    Definition dshare_of (xs : list R) (v : Z) : R :=
      if in_dec BinInt.Z.eq_dec v (dpd_values sh order) then share (posz v (dpd_values sh order)) xs else 0.
    Theorem dpd_draws l : drawn_from (dpd_known sh) l ->
      draws_follow (dpd_shapes sh order (dpd_stat l))
        (fun gam u v => exists s, dpd_sampler_init gam sh (dpd_stat l) order = Ok s /\ dpd_sampler_eval u s = Ok v)
        (fun vs r => drawable vs /\
           predicted (fun g v s => dpd_score_value dl sh g v = Ok s) (fun g v g' => dpd_add dl sh g v = Ok g') (dpd_stat l) vs r).
    Proof using All.
      intros Hl. pose proof (shapes_pos l) as HP. exists dshare_of. split.
      - intros gam HG v. pose proof (draws_pos gam _ 0 HG HP) as DP.
        pose proof (draws_length gam (dpd_shapes sh order (dpd_stat l)) 0) as DL. rewrite dpd_shapes_len in DL.
        assert (dpd_sampler_init gam sh (dpd_stat l) order =
          Ok (map (fun x => x * (1 / rsum (draws_from gam 0 (dpd_shapes sh order (dpd_stat l))))) (draws_from gam 0 (dpd_shapes sh order (dpd_stat l))), dpd_values sh order)) as EI.
        { unfold dpd_sampler_init. rewrite dpd_probs_eq. cbn [fst snd]. now rewrite (dirichlet_shares lg gam _ HP). }
        assert (draws_from gam 0 (dpd_shapes sh order (dpd_stat l)) <> []) as Hne.
        { intros E0. rewrite E0 in DL. cbn in DL. apply (shapes_ne l Hl). apply length_zero_iff_nil. now rewrite dpd_shapes_len. }
        set (xs := draws_from gam 0 (dpd_shapes sh order (dpd_stat l))) in *. set (ps := map (fun x => x * (1 / rsum xs)) xs) in *.
        assert (forall u, (exists s, dpd_sampler_init gam sh (dpd_stat l) order = Ok s /\ dpd_sampler_eval u s = Ok v) <->
                          exists i, nth_error (dpd_values sh order) i = Some v /\ sample_discrete u ps = Ok i) as EQ.
        { intros u. rewrite EI. unfold dpd_sampler_eval. split.
          - intros (s & E & E2). apply ok_inj in E. subst s. cbn [fst snd] in E2. destruct (sample_discrete u ps) as [i | |]; try discriminate.
            cbn [obind] in E2. unfold vget in E2. exists i. destruct (nth_error _ i); [| discriminate]. apply ok_inj in E2. subst. auto.
          - intros (i & En & E). eexists. split; [reflexivity |]. cbn [fst snd]. rewrite E. cbn [obind]. unfold vget. now rewrite En. }
        unfold dshare_of. destruct (in_dec _ _ _) as [Hi | Hn].
        + destruct (discrete_prob lg xs (posz v (dpd_values sh order)) Hne DP) as (lo0 & H1 & H2 & H3 & H4); [rewrite DL; now apply posz_lt |].
          exists lo0. split; [exact H1 |]. split; [exact H2 |]. split; [exact H3 |]. intros u Hu. rewrite EQ, <- (H4 u Hu). fold ps.
          split.
          * intros (i & E & E2). rewrite <- (posz_only _ _ _ values_nodup E). exact E2.
          * intros E. eexists. split; [now apply posz_nth | exact E].
        + exists 0. split; [lra |]. split; [lra |]. split; [lra |]. intros u Hu. rewrite EQ. split; [| lra].
          intros (i & E & _). exfalso. apply Hn. eapply nth_error_In; eauto.
      - intros vs r [Hd HL]. rewrite (dpd_polya vs l r Hl Hd HL).
        apply (gamma_mean_ext _ (shares (map (fun v => posz v (dpd_values sh order)) vs))).
        + intros xs. destruct Hd as [Hd _]. unfold shares, product. clear HL. induction Hd as [|v vs Hv _ IH]; cbn; [reflexivity |].
          rewrite IH. f_equal. unfold dshare_of. destruct (in_dec _ _ _) as [_ | Hn]; [reflexivity |]. exfalso. now apply Hn, values_in.
        + apply polya_mean; [exact HP |]. apply List.Forall_map. destruct Hd as [Hd _]. eapply List.Forall_impl; [| exact Hd].
          intros v Hv. rewrite dpd_shapes_len. now apply posz_lt, values_in.
    Qed.
  End One.
End S.
