(** Property C72: the checks that are compiled into every build report invalid arguments. *)
From Coq Require Import List ZArith Lia Bool Reals Lra.
From Verif.model Require Import Base VectorMath Num NumR NumTerm Component NICH DPD Sparse Random Sampler NIW Proto.
From Verif.proof Require Import BaseProof VectorProof LgammaProof.
From stdpp Require Import gmap.

(** Removing a value from an empty normal-inverse-chi-squared group. *)
Theorem C72_nich_remove_from_empty : forall F (N : Num F) dl sh (g : nich_group F) v,
  (ni_count g <= 0)%Z -> nich_rem dl sh g v = Fail.
Proof.
  intros F N dl sh g v H. unfold nich_rem. destruct (Z.ltb_spec 0 (ni_count g)); [lia|reflexivity].
Qed.
Print Assumptions C72_nich_remove_from_empty.
Example C72_nich_nonvacuous : nich_rem (N := NumTerm) 0 (mk_nich_shared (TOf 0) (TOf 1) (TOf 1) (TOf 1))
  (mk_nich 0 (TOf 0) (TOf 0)) (TOf 5) = Fail.
Proof. reflexivity. Qed.

(** A new value is given to a Dirichlet-process-discrete prior that has no mass left (whatever
    beta draw [u] would be made). *)
Theorem C72_dpd_no_mass_left : forall F (N : Num F) dl (sh : dpd_shared F) v u tot,
  nltb (nof 0) (dp_beta0 sh) = false -> cmap (dp_counts sh) !! v = None -> ctotal (dp_counts sh) = Some tot ->
  (0 <= tot < 2147483647)%Z -> dps_add dl sh v u = Fail.
Proof.
  intros F N dl sh v u tot Hb Hv Ht Htot. unfold dps_add.
  unfold dassert_at, dassert. destruct (1 <=? dl); [destruct (negb (v =? OTHER)%Z)|]; cbn [obind]; try reflexivity;
    (unfold ctr_add; change (1 =? 0)%Z with false; cbv iota; rewrite Ht, Hv; unfold ctr_bump;
     rewrite i32_ok by (unfold i32_min, i32_max; lia); cbn [obind snd]; change (1 =? 1)%Z with true; cbv iota; rewrite Hb; reflexivity).
Qed.
Print Assumptions C72_dpd_no_mass_left.
(** From debug level 1 on, a Dirichlet-process-discrete group neither takes nor gives up the reserved value OTHER or a
    value that the prior does not know. *)
Theorem C72_dpd_values_checked : forall F (dl : nat) (sh : dpd_shared F) g v n, 1 <= dl -> v = 4294967295%Z \/ dp_betas sh !! v = None ->
  dpd_add dl sh g v = Fail /\ dpd_rep dl sh g v n = Fail /\ dpd_rem dl sh g v = Fail.
Proof.
  intros F dl sh g v n H Hv. assert (dpd_check dl sh v = Fail) as E; [| unfold dpd_add, dpd_rep, dpd_rem; now rewrite E].
  unfold dpd_check, dassert_at. apply Nat.leb_le in H. rewrite H. unfold dassert, sp_contains.
  destruct (Z.eqb_spec v OTHER) as [-> | HO]; cbn [negb obind]; [reflexivity |]. destruct Hv as [-> | ->]; [now destruct HO | reflexivity].
Qed.
Print Assumptions C72_dpd_values_checked.
Example C72_dpd_values_nonvacuous : let sh := mk_dpd_shared (TOf 1) (TOf 1) (TOf 0) ({[3%Z := TOf 1]} : gmap Z term) (mk_counter {[3%Z := 5%Z]} (Some 5%Z)) in
  dpd_add 1 sh (mk_counter {[3%Z := 2%Z]} (Some 2%Z)) 4 = Fail /\
  match dpd_add 1 sh (mk_counter {[3%Z := 2%Z]} (Some 2%Z)) 3 with Ok g => cmap g !! 3%Z = Some 3%Z | _ => False end.
Proof. split; vm_compute; reflexivity. Qed.
Example C72_dpd_no_mass_nonvacuous : let sh := mk_dpd_shared (TOf 1) (TOf 1) (TOf 0) ({[3%Z := TOf 1]} : gmap Z term) (mk_counter {[3%Z := 5%Z]} (Some 5%Z)) in
  nltb (Num := NumTerm) (nof (Num := NumTerm) 0) (dp_beta0 sh) = false /\ cmap (dp_counts sh) !! 4%Z = None.
Proof. split; reflexivity. Qed.

(** A prior is loaded from a message only if the message lists as many betas and counts as
    values, every beta is positive (not NaN) and they add up to at most 1.0001. *)
Theorem C72_dpd_shared_load_checked : forall F (N : Num F) dl (m : dps_msg F) sh, dps_load dl m = Ok sh ->
  length (dm_betas m) = length (dm_values m) /\ length (dm_counts m) = length (dm_values m) /\
  List.Forall (fun b => nltb (nof 0) b = true) (dm_betas m) /\
  nleb (fold_left nadd (dm_betas m) (nof 0)) (nadd (nlit 1 1) (nlit 1 10000)) = true.
Proof.
  intros F N dl m sh. unfold dps_load, dassert.
  destruct (Nat.eqb_spec (length (dm_betas m)) (length (dm_values m))) as [E1|]; [|discriminate]. cbn [obind].
  destruct (Nat.eqb_spec (length (dm_counts m)) (length (dm_values m))) as [E2|]; [|discriminate]. cbn [obind].
  intro H. split; [exact E1|split; [exact E2|]]. clear E1 E2.
  assert (L : forall vs bs cs be co sum r, dps_load_loop dl vs bs cs be co sum = Ok r ->
    List.Forall (fun b => nltb (nof 0) b = true) bs /\ snd r = fold_left nadd bs sum).
  { induction vs as [|v vs IH]; intros [|b bs] [|c cs] be co sum r E; cbn [dps_load_loop] in E; try discriminate.
    - injection E as <-. split; [constructor|reflexivity].
    - unfold dassert in E. destruct (nltb (nof 0) b) eqn:Hb; [|discriminate]. cbn [obind] in E.
      destruct (sp_add dl be v b) as [be'| |]; cbn [obind] in E; try discriminate.
      destruct (ctr_add co v (as_int c)) as [r'| |]; cbn [obind] in E; try discriminate.
      apply IH in E as [E1 E2]. split; [constructor; assumption|exact E2]. }
  destruct (dps_load_loop dl (dm_values m) (dm_betas m) (dm_counts m) ∅ _ (nof 0)) as [[[be co] sum]| |] eqn:El;
    cbn [obind] in H; try discriminate.
  destruct (L _ _ _ _ _ _ _ El) as [L1 L2]. split; [exact L1|]. cbn [snd] in L2. rewrite <- L2.
  destruct (nleb sum _); [reflexivity|discriminate].
Qed.
Print Assumptions C72_dpd_shared_load_checked.
Local Lemma rltb_yes x y : (x < y)%R -> rltb x y = true.
Proof. intro H. unfold rltb. now destruct (Rlt_dec x y). Qed.
Local Lemma rltb_no x y : (y <= x)%R -> rltb x y = false.
Proof. intro H. unfold rltb. destruct (Rlt_dec x y); [lra|reflexivity]. Qed.
Local Lemma rleb_yes x y : (x <= y)%R -> rleb x y = true.
Proof. intro H. unfold rleb. now destruct (Rle_dec x y). Qed.
Example C72_dpd_load_nonvacuous : exists sh,
  dps_load (N := NumR lg_witness) 0 (mk_dps_msg 1%R 1%R [3; 8]%Z [/ 2; / 4]%R [1; 4]%Z) = Ok sh.
Proof.
  eexists. unfold dps_load. cbn [dm_betas dm_values dm_counts length Nat.eqb dassert obind dps_load_loop].
  change (@nltb R (NumR lg_witness)) with rltb. change (@nof R (NumR lg_witness)) with IZR. change (@nleb R (NumR lg_witness)) with rleb.
  rewrite !rltb_yes by lra. cbn [dassert obind].
  unfold sp_add, um_insert. rewrite lookup_empty. cbn [dassert_at Nat.leb obind].
  change (as_int 1) with 1%Z. change (as_int 4) with 4%Z.
  unfold ctr_add. change (1 =? 0)%Z with false. change (4 =? 0)%Z with false. cbv iota.
  cbn [ctotal cmap]. unfold ctr_bump. rewrite i32_ok by (unfold i32_min, i32_max; lia). cbn [obind].
  rewrite lookup_empty. cbn [obind fst].
  rewrite lookup_insert_ne, lookup_empty by discriminate. cbn [obind].
  cbn [ctotal cmap]. rewrite i32_ok by (unfold i32_min, i32_max; lia). cbn [obind].
  rewrite lookup_insert_ne, lookup_empty by discriminate. cbn [obind fst].
  rewrite rleb_yes; [reflexivity|]. cbn. lra.
Qed.

(** A normal-inverse-Wishart prior is loaded only if the dimensions agree, kappa is positive
    and nu exceeds dim - 1. *)
Theorem C72_niw_shared_load_checked : forall (F : Set) (N : Num F) ldlt dl (m : niw_shared_msg F) sh,
  niw_shared_load ldlt dl m = Ok sh ->
  0 < length (wsm_mu m) /\ length (wsm_psi m) = length (wsm_mu m) * length (wsm_mu m) /\
  nltb (nof 0) (wsm_kappa m) = true /\
  nltb (nsub (nof (Z.of_nat (length (wsm_mu m)))) (nof 1)) (wsm_nu m) = true.
Proof.
  intros F N ldlt dl m sh. unfold niw_shared_load, dassert.
  destruct (Nat.ltb_spec 0 (length (wsm_mu m))) as [Hd|]; [|discriminate]. cbn [obind].
  destruct (load_vec _ _) as [mu| |]; cbn [obind]; try discriminate.
  destruct (nltb (nof 0) (wsm_kappa m)); [|discriminate]. cbn [obind].
  destruct (Nat.eqb_spec (length (wsm_mu m) * length (wsm_mu m)) (length (wsm_psi m))) as [E|]; [|discriminate]. cbn [obind].
  destruct (load_mat _ _) as [psi| |]; cbn [obind]; try discriminate.
  destruct (dassert3 dl _) as [[]| |]; cbn [obind]; try discriminate.
  destruct (length mu =? length psi); [|discriminate]. cbn [obind].
  destruct (nltb (nsub _ _) (wsm_nu m)); [|discriminate]. intros _. auto.
Qed.
Print Assumptions C72_niw_shared_load_checked.

(** Sampling from an empty collection, or a pair from fewer than two. *)
Theorem C72_empty_collections : forall F (N : Num F) (u total : F) T i j (urn : list T),
  sample_discrete u [] = Fail /\ sample_from_likelihoods u [] total = Fail /\ sample_from_probs u [] = Fail /\
  sample_from_urn (T := T) i [] = Fail /\ (length urn < 2 -> sample_pair_from_urn i j urn = Fail).
Proof.
  intros F N u total T i j urn. repeat split. intro H. unfold sample_pair_from_urn, dassert.
  destruct (Nat.leb_spec 2 (length urn)); [lia|reflexivity].
Qed.
Print Assumptions C72_empty_collections.

Local Lemma nth_error_lookup_std {A} (l : list A) i : nth_error l i = l !! i.
Proof. revert i. induction l; intros [|i]; cbn; auto. Qed.
(** The "safe" samplers reject a negative lower bound and non-positive parameters. *)
Theorem C72_safe_samplers : forall F (N : Num F) (x y u alpha beta mn : F) gam dim alphas probs,
  ((nleb (nof 0) mn = false \/ nltb (nof 0) alpha = false) -> sample_beta_safe x y u alpha beta mn = Fail) /\
  (nleb (nof 0) mn = false -> sample_dirichlet_safe gam dim (Some alphas) probs mn = Fail) /\
  (length alphas = dim -> length probs = dim ->
   (exists i a, alphas !! i = Some a /\ nltb (nof 0) (nadd a mn) = false) ->
   sample_dirichlet_safe gam dim (Some alphas) probs mn = Fail).
Proof.
  intros F N x y u alpha beta mn gam dim alphas probs. repeat split.
  - intro H. unfold sample_beta_safe, dassert. destruct (nleb (nof 0) mn); cbn [obind]; [|reflexivity].
    destruct H as [H|H]; [discriminate|]. now rewrite H.
  - intro H. unfold sample_dirichlet_safe. now rewrite H.
  - intros Ea Ep (i & a & Hi & Hbad). unfold sample_dirichlet_safe, dassert. destruct (nleb (nof 0) mn); [|reflexivity]. cbn [obind].
    assert (L : forall n lo st, length (fst st) = dim -> lo <= i < lo + n -> lo + n <= dim ->
      vfor lo n (dirichlet_safe_step gam (Some alphas) mn) st = Fail).
    { induction n as [|n IH]; intros lo [pr t] Hl Hr Hn; [lia|]. cbn [vfor]. unfold dirichlet_safe_step at 1. cbn [fst] in Hl.
      destruct (nth_error alphas lo) as [b|] eqn:Eb; [|apply nth_error_None in Eb; lia].
      rewrite (vget_nth _ _ _ Eb). cbn [obind]. unfold dassert.
      destruct (Nat.eq_dec lo i) as [->|Hne].
      - rewrite <- nth_error_lookup_std in Hi. rewrite Hi in Eb. injection Eb as <-. rewrite Hbad. reflexivity.
      - destruct (nltb (nof 0) (nadd b mn)); [|reflexivity]. cbn [obind].
        rewrite vset_ok by lia. cbn [obind]. apply IH; cbn [fst]; [rewrite length_upd; lia|lia|lia]. }
    rewrite (L dim 0 (probs, nof 0)); [reflexivity|exact Ep| |lia]. apply lookup_lt_Some in Hi. lia.
Qed.
Print Assumptions C72_safe_samplers.

(** LowEntropy::sample_assignments asked for more values than the dataset has. *)
Theorem C72_low_entropy_sample_size : forall F (N : Num F) dl dataset n (u : nat -> F),
  (dataset < Z.of_nat n)%Z -> le_sample_assignments dl dataset n u = Fail.
Proof.
  intros F N dl dataset n u H. unfold le_sample_assignments. destruct (Z.leb_spec (Z.of_nat n) dataset); [lia|reflexivity].
Qed.
Print Assumptions C72_low_entropy_sample_size.

(** Witnesses. *)
Example C72_nonvacuous :
  sample_beta_safe (N := NumR lg_witness) 1%R 1%R 1%R (-1)%R 1%R 0%R = Fail /\
  (exists (i : nat) a, [1; -1]%R !! i = Some a /\ @nltb R (NumR lg_witness) (@nof R (NumR lg_witness) 0) (@nadd R (NumR lg_witness) a 0%R) = false) /\
  sample_pair_from_urn 0 0 [7] = Fail /\ le_sample_assignments (N := NumTerm) 0 3 4 (fun _ => TOf 0) = Fail.
Proof.
  split; [|split; [|split]]; try reflexivity.
  - apply (C72_safe_samplers R (NumR lg_witness) 1%R 1%R 1%R (-1)%R 1%R 0%R (fun _ x => x) 0 [] []). right. cbn. apply rltb_no. lra.
  - exists 1, (-1)%R. split; [reflexivity|]. cbn. apply rltb_no. lra.
Qed.
