(** Samplers of the count models: the law of their draws. *)
From Coq Require Import List Reals Lra Lia Psatz.
From Coquelicot Require Import Coquelicot.
From Verif.spec Require Import DrawSpec PartitionSpec RandomSpec LgammaSpec.
From Verif.model Require Import Base Num NumR Component Random BNB GP GroupSampler.
From Verif.proof Require Import BaseProof RandomProof ClosedForm LgammaProof DirichletLaw DrawProof GammaFunction CountsProof.
Import ListNotations.
Local Open Scope R_scope.

(** ** Means over the positive orthant *)
Lemma gamma_mean_pos shapes f g v :
  (forall xs, length xs = length shapes -> List.Forall (fun x => 0 < x) xs -> f xs = g xs) ->
  gamma_mean shapes f v -> gamma_mean shapes g v.
Proof.
  intros E H. unfold gamma_mean in *. eapply is_lim_seq_ext; [| exact H]. intros n. cbv beta. f_equal.
  change (box_integral (lo n) (hi n) shapes f = box_integral (lo n) (hi n) shapes g).
  clear H. revert f g E. induction shapes as [|a t IH]; intros f g E; cbn [box_integral].
  - apply E; [reflexivity | constructor].
  - apply rint_ext; [apply lo_hi |]. intros x Hx. f_equal. apply IH. intros xs L P. apply E; [cbn; now rewrite L |].
    constructor; [pose proof (lo_pos n); lra | exact P].
Qed.
Lemma polya_mean_scal a t is c : List.Forall (fun a => 0 < a) (a :: t) -> List.Forall (fun i => (i < length (a :: t))%nat) is ->
  gamma_mean (a :: t) (fun xs => c * shares is xs) (c * polya (a :: t) is).
Proof.
  intros HS HI. pose proof (polya_mean (a :: t) is HS HI) as H. unfold gamma_mean in *.
  apply (is_lim_seq_ext (fun n => c * (box_integral (lo n) (hi n) (a :: t) (shares is) / box_integral (lo n) (hi n) (a :: t) (fun _ => 1)))).
  - intros n. change (/ INR (S n)) with (lo n). change (INR (S n)) with (hi n).
    rewrite (B_ext (lo n) (hi n) (lo_pos n) (lo_hi n) (a :: t) (fun xs => c * shares is xs) (fun xs => c * shares is xs + 0 * shares is xs)) by (intros; ring).
    rewrite (B_lin (lo n) (hi n) (lo_pos n) (lo_hi n)) by (apply nice_shares; first [apply lo_pos | apply lo_hi]). unfold Rdiv. ring.
  - exact (is_lim_seq_scal_l _ c (polya (a :: t) is) H).
Qed.

(** ** The urn with two colours *)
Lemma rising_front x n : rising x (S n) = x * rising (x + 1) n.
Proof.
  induction n as [|n IH]; [cbn; ring |]. change (rising x (S (S n))) with (rising x (S n) * (x + INR (S n))). rewrite IH.
  change (rising (x + 1) (S n)) with (rising (x + 1) n * (x + 1 + INR n)). rewrite S_INR. ring.
Qed.
Lemma rising_add x n m : rising x (n + m) = rising x n * rising (x + INR n) m.
Proof.
  revert x. induction n as [|n IH]; intros x; [cbn [rising INR Nat.add]; rewrite Rplus_0_r; ring |].
  cbn [Nat.add]. rewrite !rising_front, IH, S_INR. replace (x + 1 + INR n) with (x + (INR n + 1)) by ring. ring.
Qed.
Lemma polya_left a b n rest : 0 < a -> 0 < b ->
  polya [a; b] (repeat 0%nat n ++ rest) = rising a n / rising (a + b) n * polya [a + INR n; b] rest.
Proof.
  revert a. induction n as [|n IH]; intros a Ha Hb.
  - cbn [repeat app rising INR]. rewrite Rplus_0_r. field.
  - cbn [repeat app polya nth bump rsum]. rewrite IH by lra. rewrite !rising_front, S_INR.
    replace (a + 1 + b) with (a + b + 1) by ring. replace (a + 1 + INR n) with (a + (INR n + 1)) by ring.
    pose proof (rising_pos (a + b + 1) n ltac:(lra)). rewrite Rplus_0_r. field. lra.
Qed.
Lemma polya_right a b n rest : 0 < a -> 0 < b ->
  polya [a; b] (repeat 1%nat n ++ rest) = rising b n / rising (a + b) n * polya [a; b + INR n] rest.
Proof.
  revert b. induction n as [|n IH]; intros b Ha Hb.
  - cbn [repeat app rising INR]. rewrite Rplus_0_r. field.
  - cbn [repeat app polya nth bump rsum]. rewrite IH by lra. rewrite !rising_front, S_INR.
    replace (a + (b + 1)) with (a + b + 1) by ring. replace (b + 1 + INR n) with (b + (INR n + 1)) by ring.
    pose proof (rising_pos (a + b + 1) n ltac:(lra)). rewrite Rplus_0_r. field. lra.
Qed.
Lemma polya_block a b r v rest : 0 < a -> 0 < b ->
  polya [a; b] ((repeat 0%nat r ++ repeat 1%nat v) ++ rest) =
  rising a r * rising b v / rising (a + b) (r + v) * polya [a + INR r; b + INR v] rest.
Proof.
  intros Ha Hb. pose proof (pos_INR r). rewrite <- app_assoc, polya_left, polya_right by lra. rewrite rising_add.
  replace (a + INR r + b) with (a + b + INR r) by ring.
  pose proof (rising_pos (a + b) r ltac:(lra)). pose proof (rising_pos (a + b + INR r) v ltac:(lra)). field. lra.
Qed.

Lemma u32_id z : (0 <= z < 4294967296)%Z -> u32 z = z.
Proof. intros H. unfold u32. now apply Z.mod_small. Qed.

Section S.
  Variable lg : R -> R.
  Hypothesis Hlg : lgamma_like lg.
  #[local] Hint Extern 0 (Num R) => exact (NumR lg) : typeclass_instances.

  (** what the distribution objects of the standard library are specified to return *)
  Definition std_pmf (d : std_draw R) (v : Z) : R :=
    match d with
    | SPoisson m => poisson_pmf m (Z.to_nat v)
    | SNegativeBinomial k p => negbin_pmf (Z.to_nat k) p (Z.to_nat v)
    | SNormal _ _ => 0
    end.

  (** ** BNB *)
  Definition bnb_shapes (sh : bnb_shared R) (g : bnb_group) : list R :=
    [bnb_alpha sh + IZR (bnb_r sh) * IZR (bnb_count g); bnb_beta sh + IZR (bnb_sum g)].
  Lemma bnb_score_exp sh g v (r : nat) :
    0 < bnb_alpha sh -> 0 < bnb_beta sh -> bnb_r sh = Z.of_nat r -> (0 <= bnb_count g)%Z -> (0 <= bnb_sum g)%Z -> (0 <= v)%Z ->
    let a := bnb_alpha sh + IZR (bnb_r sh) * IZR (bnb_count g) in
    let b := bnb_beta sh + IZR (bnb_sum g) in
    exp (bnb_score_value sh g v) = rising a r * rising b (Z.to_nat v) / rising (a + b) (r + Z.to_nat v).
  Proof using Hlg.
    intros Ha Hb Hr Hc Hs Hv. cbn zeta. unfold bnb_score_value, bnb_plus_group.
    cbn [bnb_alpha bnb_beta bnb_r]. cbn [nof nadd nsub nmul ndiv nneg nlog nlgamma NumR].
    apply IZR_le in Hc, Hs.
    assert (IZR (bnb_r sh) = INR r) as Er by (rewrite Hr; symmetry; apply INR_IZR_INZ).
    assert (IZR v = INR (Z.to_nat v)) as Ev by (rewrite INR_IZR_INZ; f_equal; lia). rewrite Ev.
    pose proof (Rmult_le_pos _ _ (pos_INR r) Hc) as Hrc. rewrite <- Er in Hrc.
    set (a := bnb_alpha sh + IZR (bnb_r sh) * IZR (bnb_count g)) in *. assert (0 < a) by (unfold a; lra).
    set (b := bnb_beta sh + IZR (bnb_sum g)) in *. assert (0 < b) by (unfold b; lra). rewrite Er. set (w := Z.to_nat v).
    replace (a + INR r + (b + INR w)) with (a + b + INR (r + w)) by (rewrite plus_INR; lra).
    replace (lg (a + b) - lg (a + b + INR (r + w)) + (lg (a + INR r) - lg a) + (lg (b + INR w) - lg b))
      with ((lg (a + INR r) - lg a) + (lg (b + INR w) - lg b) + - (lg (a + b + INR (r + w)) - lg (a + b))) by lra.
    rewrite !exp_plus, exp_Ropp, !exp_lg by (auto; lra). reflexivity.
  Qed.
  Definition bnb_block (r : nat) (vs : list Z) : list nat :=
    concat (map (fun v => repeat 0%nat r ++ repeat 1%nat (Z.to_nat v)) vs).
  Lemma bnb_polya dl sh (r : nat) vs g q : 0 < bnb_alpha sh -> 0 < bnb_beta sh -> bnb_r sh = Z.of_nat r ->
    room (bnb_count g) (bnb_sum g) vs ->
    predicted (fun g v s => bnb_score_value sh g v = s) (fun g v g' => bnb_add dl sh g v = Ok g') g vs q ->
    q = polya (bnb_shapes sh g) (bnb_block r vs).
  Proof using Hlg.
    intros Ha Hb Hr HR HL. revert HR.
    assert (forall g v s, (0 <= bnb_count g)%Z -> (0 <= bnb_sum g)%Z -> (0 <= v)%Z -> bnb_score_value sh g v = s ->
      forall rest, polya (bnb_shapes sh g) (bnb_block r (v :: rest)) =
        exp s * polya (bnb_shapes sh (mk_bnb (bnb_count g + 1) (bnb_sum g + v))) (bnb_block r rest)) as STEP.
    { intros g0 v s0 H1 H2 H3 <- rest. unfold bnb_block at 1. cbn [map concat]. fold (bnb_block r rest).
      assert (IZR (bnb_r sh) = INR r) as Er by (rewrite Hr; symmetry; apply INR_IZR_INZ).
      unfold bnb_shapes. pose proof (IZR_le _ _ H1) as Q1. pose proof (IZR_le _ _ H2) as Q2.
      pose proof (Rmult_le_pos _ _ (pos_INR r) Q1) as Q3. rewrite <- Er in Q3.
      rewrite polya_block by lra. rewrite (bnb_score_exp sh g0 v r) by assumption. cbn [bnb_count bnb_sum].
      f_equal. f_equal. rewrite !plus_IZR, Er. rewrite (INR_IZR_INZ (Z.to_nat v)). rewrite Z2Nat.id by exact H3.
      rewrite Rmult_plus_distr_l, Rmult_1_r, <- !Rplus_assoc. reflexivity. }
    induction HL as [g | g v s E | g v s g' vs q E EA HL IH]; cbn [room]; intros (HB & HR).
    - reflexivity.
    - rewrite (STEP g v s) by (assumption || lia). cbn [bnb_block map concat polya]. ring.
    - destruct HR as [Hv HR]. rewrite (STEP g v s) by (assumption || lia). f_equal.
      unfold bnb_add in EA. apply ok_inj in EA. subst g'.
      assert (u32 (bnb_count g + 1) = (bnb_count g + 1)%Z /\ u32 (bnb_sum g + v) = (bnb_sum g + v)%Z) as [E1 E2].
      { destruct vs; cbn [room] in HR; split; apply u32_id; lia. }
      rewrite E1, E2 in IH. now apply IH.
  Qed.
  Lemma beta_share x y u a b : 0 < x -> 0 < y -> sample_beta x y u a b = share 0 [x; y].
  Proof using Type.
    intros Hx Hy. unfold sample_beta, iszero. cbn [nleb nltb ndiv nadd nof NumR]. unfold rleb.
    destruct (Rle_dec x 0); [lra |]. cbn [andb]. unfold share. cbn [nth rsum]. now rewrite Rplus_0_r.
  Qed.
  Lemma negbin_shares r vs x y : 0 < x -> 0 < y ->
    product (map (fun v => negbin_pmf r (share 0 [x; y]) (Z.to_nat v)) vs) = coefs r vs * shares (bnb_block r vs) [x; y].
  Proof using Type.
    intros Hx Hy. assert (1 - share 0 [x; y] = share 1 [x; y]) as E by (unfold share; cbn; rewrite Rplus_0_r; field; lra).
    induction vs as [|v vs IH]; [unfold coefs, product, shares; cbn; ring |].
    unfold coefs, bnb_block in *. unfold product in *. cbn [map fold_right concat]. rewrite IH.
    rewrite shares_app, shares_app.
    assert (forall i n, shares (repeat i n) [x; y] = share i [x; y] ^ n) as ER.
    { intros i n. induction n as [|n IHn]; [reflexivity |]. unfold shares in *. cbn [repeat fold_right pow]. now rewrite IHn. }
    rewrite !ER. unfold negbin_pmf. rewrite E. ring.
  Qed.
  Theorem bnb_draws dl sh g (r : nat) : 0 < bnb_alpha sh -> 0 < bnb_beta sh -> bnb_r sh = Z.of_nat r ->
    (0 <= bnb_count g)%Z -> (0 <= bnb_sum g)%Z ->
    densities_follow (bnb_shapes sh g) (fun gam u v => std_pmf (bnb_sampler_eval sh (bnb_sampler_init gam u sh g)) v)
      (fun vs q => room (bnb_count g) (bnb_sum g) vs /\
         exists s, predicted (fun g v s => bnb_score_value sh g v = s) (fun g v g' => bnb_add dl sh g v = Ok g') g vs s /\
                   q = coefs r vs * s).
  Proof using Hlg.
    intros Ha Hb Hr Hc Hs. exists (fun xs v => negbin_pmf r (share 0 xs) (Z.to_nat v)).
    apply IZR_le in Hc, Hs. assert (0 <= IZR (bnb_r sh)) as Hrr by (rewrite Hr; apply (IZR_le 0); lia).
    pose proof (Rmult_le_pos _ _ Hrr Hc) as Hrc.
    assert (List.Forall (fun a => 0 < a) (bnb_shapes sh g)) as HP by (repeat constructor; lra).
    split.
    - intros gam HG u v. unfold bnb_sampler_eval, sample_negative_binomial, std_pmf, bnb_sampler_init, bnb_plus_group.
      cbn [bnb_alpha bnb_beta nadd nmul nof NumR]. rewrite beta_share by (apply HG; lra). rewrite Hr, Nat2Z.id. unfold bnb_shapes.
      cbn [draws_from]. now rewrite Hr.
    - intros vs q (HR & s & HL & ->). rewrite (bnb_polya dl sh r vs g s Ha Hb Hr HR HL).
      apply (gamma_mean_pos _ (fun xs => coefs r vs * shares (bnb_block r vs) xs)).
      + intros xs L P. destruct xs as [|x [|y [|]]]; try discriminate L. inversion P as [|? ? Px P']; subst. inversion P' as [|? ? Py _]; subst.
        symmetry. now apply negbin_shares.
      + apply polya_mean_scal; [exact HP |]. apply List.Forall_forall. intros i Hi. unfold bnb_block in Hi.
        apply in_concat in Hi as (l & Hl & Hi). apply in_map_iff in Hl as (v & <- & _).
        apply in_app_iff in Hi as [Hi | Hi]; apply repeat_spec in Hi; subst; cbn; lia.
  Qed.
  (** the probabilities that the scores report are not those of the draws *)
  Theorem bnb_draws_not : exists (sh : bnb_shared R) g, 0 < bnb_alpha sh /\ 0 < bnb_beta sh /\ g = bnb_init sh /\
    forall dl, ~ densities_follow (bnb_shapes sh g) (fun gam u v => std_pmf (bnb_sampler_eval sh (bnb_sampler_init gam u sh g)) v)
      (fun vs q => room (bnb_count g) (bnb_sum g) vs /\
         predicted (fun g v s => bnb_score_value sh g v = s) (fun g v g' => bnb_add dl sh g v = Ok g') g vs q).
  Proof using Hlg.
    exists (mk_bnb_shared 1 1 2), (mk_bnb 0 0). cbn [bnb_alpha bnb_beta]. split; [lra |]. split; [lra |]. split; [reflexivity |].
    intros dl. set (sh := mk_bnb_shared 1 1 2). set (g := mk_bnb 0 0). intros (p & Hp1 & Hp2).
    destruct (bnb_draws dl sh g 2) as (p' & Hp1' & Hp2'); try (cbn; lra || lia || reflexivity).
    assert (predicted (fun g v s => bnb_score_value sh g v = s) (fun g v g' => bnb_add dl sh g v = Ok g') g [1%Z] (exp (bnb_score_value sh g 1))) as HL
      by (now constructor).
    assert (room (bnb_count g) (bnb_sum g) [1%Z]) as HR by (cbn; lia).
    specialize (Hp2 _ _ (conj HR HL)). specialize (Hp2' _ _ (conj HR (ex_intro _ _ (conj HL eq_refl)))).
    assert (gamma_mean (bnb_shapes sh g) (fun xs => product (map (p' xs) [1%Z])) (exp (bnb_score_value sh g 1))) as H3.
    { apply (gamma_mean_pos _ (fun xs => product (map (p xs) [1%Z]))); [| exact Hp2].
      intros xs L P. destruct xs as [|x [|y [|]]]; try discriminate L. inversion P as [|? ? Px P']; subst. inversion P' as [|? ? Py _]; subst.
      pose (gam := fun (i : nat) (_ : R) => match i with O => x | _ => y end).
      assert (positive_draws gam) as HG by (intros [|i] a _; cbn; assumption).
      specialize (Hp1 gam HG 0 1%Z). specialize (Hp1' gam HG 0 1%Z). rewrite Hp1 in Hp1'. cbn [draws_from bnb_shapes gam] in Hp1'.
      cbn [map]. now rewrite Hp1'. }
    apply is_lim_seq_unique in H3. apply is_lim_seq_unique in Hp2'. rewrite H3 in Hp2'. apply (f_equal real) in Hp2'. cbn [real] in Hp2'. rename Hp2' into E.
    pose proof (exp_pos (bnb_score_value sh g 1)) as P.
    assert (coefs 2 [1%Z] = 2) as E2 by (change (coefs 2 [1%Z]) with (Binomial.C 2 1 * 1); unfold Binomial.C; cbn [fact Nat.sub Nat.mul Nat.add INR]; field).
    rewrite E2 in E. lra.
  Qed.

  (** ** GP *)
  Fixpoint nsum (vs : list Z) : nat := match vs with [] => 0%nat | v :: t => (Z.to_nat v + nsum t)%nat end.
  Fixpoint facts (vs : list Z) : R := match vs with [] => 1 | v :: t => INR (fact (Z.to_nat v)) * facts t end.
  Lemma facts_pos vs : 0 < facts vs.
  Proof using Type. induction vs as [|v vs IH]; cbn [facts]; [lra |]. apply Rmult_lt_0_compat; [apply INR_fact_lt_0 | exact IH]. Qed.
  Definition gp_A (sh : gp_shared R) (g : gp_group R) : R := gp_alpha sh + IZR (gp_sum g).
  Definition gp_B (sh : gp_shared R) (g : gp_group R) : R := gp_inv_beta sh + IZR (gp_count g).
  Lemma gp_score_exp sh g v : 0 < gp_A sh g -> 0 < gp_B sh g -> (0 <= v)%Z ->
    exp (gp_score_value sh g v) =
    rising (gp_A sh g) (Z.to_nat v) / INR (fact (Z.to_nat v)) * Rpower (gp_B sh g / (1 + gp_B sh g)) (gp_A sh g) * (1 / (1 + gp_B sh g)) ^ Z.to_nat v.
  Proof using Hlg.
    intros HA HB Hv. unfold gp_score_value, gp_scorer_eval, gp_scorer_init, gp_plus_group.
    cbn [gp_alpha gp_inv_beta gps_score gps_post_alpha gps_coeff].
    cbn [nof nlit nadd nsub nmul ndiv nneg nlog nlgamma nlogfact NumR].
    assert (IZR v = INR (Z.to_nat v)) as Ev by (rewrite INR_IZR_INZ; f_equal; lia). rewrite Ev.
    fold (gp_A sh g). fold (gp_B sh g). set (r := gp_A sh g) in *. set (b := gp_B sh g) in *. set (w := Z.to_nat v).
    replace (1 / 1 + b) with (1 + b) by lra. rewrite ln_fact_eq.
    replace (- lg r + r * (ln b + - ln (1 + b)) + lg (r + INR w) - ln (INR (fact w)) + - ln (1 + b) * INR w)
      with ((lg (r + INR w) - lg r) + (- ln (INR (fact w)) + (r * ln (b / (1 + b)) + INR w * ln (1 / (1 + b)))))
      by (rewrite !ln_div by lra; rewrite ln_1; lra).
    rewrite !exp_plus, exp_lg by auto. rewrite exp_Ropp, exp_ln by apply INR_fact_lt_0.
    unfold Rpower. assert (0 < 1 / (1 + b)) by (apply Rdiv_lt_0_compat; lra).
    rewrite <- (Rpower_pow w (1 / (1 + b))) by assumption. unfold Rpower, Rdiv. lra.
  Qed.
  Definition gp_closed_joint (A B : R) (vs : list Z) : R :=
    rising A (nsum vs) * Rpower B A / Rpower (B + INR (length vs)) (A + INR (nsum vs)) / facts vs.
  Lemma gp_joint dl sh vs g q : 0 < gp_alpha sh -> 0 < gp_inv_beta sh -> room (gp_count g) (gp_sum g) vs ->
    predicted (fun g v s => gp_score_value sh g v = s) (fun g v g' => gp_add dl sh g v = Ok g') g vs q ->
    q = gp_closed_joint (gp_A sh g) (gp_B sh g) vs.
  Proof using Hlg.
    intros Ha Hb HR HL. revert HR.
    assert (forall A B, 0 < A -> 0 < B -> forall v rest, (0 <= v)%Z ->
      gp_closed_joint A B (v :: rest) =
      (rising A (Z.to_nat v) / INR (fact (Z.to_nat v)) * Rpower (B / (1 + B)) A * (1 / (1 + B)) ^ Z.to_nat v) *
      gp_closed_joint (A + IZR v) (B + 1) rest) as STEP.
    { intros A B HA HB v rest Hv. unfold gp_closed_joint. cbn [nsum facts length].
      assert (IZR v = INR (Z.to_nat v)) as Ev by (rewrite INR_IZR_INZ; f_equal; lia). rewrite Ev.
      set (w := Z.to_nat v). pose proof (pos_INR w) as Pw. rewrite rising_add, S_INR, plus_INR.
      replace (B + 1 + INR (length rest)) with (B + (INR (length rest) + 1)) by ring.
      replace (A + INR w + INR (nsum rest)) with (A + (INR w + INR (nsum rest))) by ring.
      assert (0 < 1 / (1 + B)) as P1 by (apply Rdiv_lt_0_compat; lra).
      assert (Rpower (B / (1 + B)) A * (1 / (1 + B)) ^ w * Rpower (B + 1) (A + INR w) = Rpower B A) as E.
      { rewrite <- Rpower_pow by exact P1. unfold Rpower. rewrite <- !exp_plus. f_equal. rewrite !ln_div, ln_1 by lra.
        replace (1 + B) with (B + 1) by ring. ring. }
      rewrite <- E. pose proof (facts_pos rest). pose proof (INR_fact_lt_0 w).
      assert (0 < Rpower (B + (INR (length rest) + 1)) (A + (INR w + INR (nsum rest)))) by apply exp_pos.
      field. lra. }
    induction HL as [g | g v s E | g v s g' vs q E EA HL IH]; cbn [room]; intros (HB & HR).
    - unfold gp_closed_joint. cbn [nsum rising facts length INR]. rewrite !Rplus_0_r. assert (0 < Rpower (gp_B sh g) (gp_A sh g)) by apply exp_pos. field. lra.
    - assert (0 < gp_A sh g) as QA by (unfold gp_A; pose proof (IZR_le 0 (gp_sum g) ltac:(lia)); lra).
      assert (0 < gp_B sh g) as QB by (unfold gp_B; pose proof (IZR_le 0 (gp_count g) ltac:(lia)); lra).
      destruct HR as [Hv _]. rewrite STEP by assumption. subst s. rewrite gp_score_exp by assumption.
      unfold gp_closed_joint. cbn [nsum rising facts length INR]. rewrite !Rplus_0_r.
      assert (0 < Rpower (gp_B sh g + 1) (gp_A sh g + IZR v)) by apply exp_pos. pose proof (INR_fact_lt_0 (Z.to_nat v)). field. lra.
    - assert (0 < gp_A sh g) as QA by (unfold gp_A; pose proof (IZR_le 0 (gp_sum g) ltac:(lia)); lra).
      assert (0 < gp_B sh g) as QB by (unfold gp_B; pose proof (IZR_le 0 (gp_count g) ltac:(lia)); lra).
      destruct HR as [Hv HR]. rewrite STEP by assumption. subst s. rewrite gp_score_exp by assumption. f_equal.
      unfold gp_add in EA. apply ok_inj in EA. subst g'. cbn [gp_count gp_sum] in IH. unfold gp_A, gp_B in IH. cbn [gp_count gp_sum] in IH.
      assert (u32 (gp_count g + 1) = (gp_count g + 1)%Z /\ u32 (gp_sum g + v) = (gp_sum g + v)%Z) as [E1 E2].
      { destruct vs; cbn [room] in HR; split; apply u32_id; lia. }
      rewrite E1, E2 in IH. rewrite (IH HR), !plus_IZR. unfold gp_A, gp_B. now rewrite <- !Rplus_assoc.
  Qed.
  Lemma poisson_product B vs x : 0 < B -> 0 < x ->
    product (map (fun v => poisson_pmf (x * (1 / B)) (Z.to_nat v)) vs) =
    (1 / B) ^ nsum vs / facts vs * (x ^ nsum vs * exp (- (INR (length vs) / B * x))).
  Proof using Type.
    intros HB Hx. induction vs as [|v vs IH].
    - unfold product. cbn [map fold_right nsum facts length INR pow]. replace (- (0 / B * x)) with 0 by (field; lra). rewrite exp_0. field.
    - unfold product in *. cbn [map fold_right nsum facts length]. rewrite IH. unfold poisson_pmf. rewrite S_INR, !pow_add, Rpow_mult_distr.
      replace (- ((INR (length vs) + 1) / B * x)) with (- (x * (1 / B)) + - (INR (length vs) / B * x)) by (field; lra). rewrite exp_plus.
      pose proof (facts_pos vs). pose proof (INR_fact_lt_0 (Z.to_nat v)). field. lra.
  Qed.
  Lemma gp_mean A B vs : 0 < A -> 0 < B ->
    gamma_mean [A] (fun xs => product (map (fun v => poisson_pmf (nth 0 xs 0 * (1 / B)) (Z.to_nat v)) vs)) (gp_closed_joint A B vs).
  Proof using Type.
    intros HA HB. set (K := (1 / B) ^ nsum vs / facts vs). set (V := nsum vs). set (c := 1 + INR (length vs) / B).
    pose proof (pos_INR V) as PV.
    assert (1 <= c) as Hc. { unfold c. assert (0 <= INR (length vs) / B); [| lra]. apply Rmult_le_pos; [apply pos_INR |]. left. now apply Rinv_0_lt_compat. }
    assert (is_lim_seq (fun n => K * (RInt (fun x => Rpower x (A + INR V - 1) * exp (- (c * x))) (lo n) (hi n) / G (lo n) (hi n) A))
              (K * (rising A V / Rpower c (A + INR V)))) as H.
    { apply (is_lim_seq_scal_l _ K (rising A V / Rpower c (A + INR V))). apply scaled_lim; [lra | exact Hc |]. now apply ratio_rising. }
    replace (gp_closed_joint A B vs) with (K * (rising A V / Rpower c (A + INR V))).
    2:{ unfold gp_closed_joint, K. fold V.
        assert (c = (B + INR (length vs)) * / B) as -> by (unfold c; field; lra).
        pose proof (pos_INR (length vs)) as PL. assert (0 < / B) as PB by (now apply Rinv_0_lt_compat).
        assert (Rpower ((B + INR (length vs)) * / B) (A + INR V) * (Rpower B A) = Rpower (B + INR (length vs)) (A + INR V) * (1 / B) ^ V) as E.
        { rewrite <- Rpower_pow by (unfold Rdiv; lra). unfold Rpower. rewrite <- !exp_plus. f_equal.
          rewrite ln_mult, ln_Rinv by lra. unfold Rdiv. rewrite Rmult_1_l, ln_Rinv by lra. ring. }
        assert (0 < Rpower ((B + INR (length vs)) * / B) (A + INR V)) as P1 by apply exp_pos.
        assert (0 < Rpower (B + INR (length vs)) (A + INR V)) as P2 by apply exp_pos. pose proof (facts_pos vs) as PF.
        apply Rmult_eq_reg_r with (Rpower ((B + INR (length vs)) * / B) (A + INR V) * Rpower (B + INR (length vs)) (A + INR V) * facts vs).
        2:{ apply Rgt_not_eq. repeat apply Rmult_lt_0_compat; assumption. }
        transitivity (rising A V * (Rpower (B + INR (length vs)) (A + INR V) * (1 / B) ^ V)); [field; lra |].
        rewrite <- E. field. lra. }
    unfold gamma_mean. eapply is_lim_seq_ext; [| exact H]. intros n. cbv beta. change (/ INR (S n)) with (lo n). change (INR (S n)) with (hi n).
    cbn [box_integral nth].
    assert (forall x, lo n <= x <= hi n -> 0 < x) as PX by (intros x Hx; pose proof (lo_pos n); lra).
    assert (ex_RInt (fun x => Rpower x (A + INR V - 1) * exp (- (c * x))) (lo n) (hi n)) as EX.
    { apply (ex_RInt_continuous (V := R_CompleteNormedModule)). intros x Hx. rewrite Rmin_left, Rmax_right in Hx by apply lo_hi.
      apply (ex_derive_continuous (fun x => Rpower x (A + INR V - 1) * exp (- (c * x)))). unfold Rpower. auto_derive. now apply PX. }
    rewrite (rint_ext (fun x => gamma_weight A x * 1) (gamma_weight A) _ _ (lo_hi n)) by (intros; ring).
    fold (G (lo n) (hi n) A).
    rewrite (rint_ext (fun x => gamma_weight A x * product (map (fun v => poisson_pmf (x * (1 / B)) (Z.to_nat v)) vs))
                      (fun x => K * (Rpower x (A + INR V - 1) * exp (- (c * x)))) _ _ (lo_hi n)).
    - rewrite rint_scal by exact EX. unfold Rdiv. ring.
    - intros x Hx. specialize (PX x Hx). rewrite poisson_product by assumption. fold V K. unfold gamma_weight.
      replace (exp (- (c * x))) with (exp (- x) * exp (- (INR (length vs) / B * x))) by (rewrite <- exp_plus; f_equal; unfold c; ring).
      replace (Rpower x (A + INR V - 1)) with (Rpower x (A - 1) * x ^ V) by (rewrite <- Rpower_pow by exact PX; rewrite <- Rpower_plus; f_equal; ring).
      unfold K. fold V. unfold Rdiv. ring.
  Qed.
  Theorem gp_draws dl sh g : 0 < gp_alpha sh -> 0 < gp_inv_beta sh -> (0 <= gp_count g)%Z -> (0 <= gp_sum g)%Z ->
    densities_follow [gp_alpha sh + IZR (gp_sum g)] (fun gam _ v => std_pmf (gp_sampler_eval (gp_sampler_init gam sh g)) v)
      (fun vs q => room (gp_count g) (gp_sum g) vs /\
         predicted (fun g v s => gp_score_value sh g v = s) (fun g v g' => gp_add dl sh g v = Ok g') g vs q).
  Proof using Hlg.
    intros Ha Hb Hc Hs. apply IZR_le in Hc, Hs.
    exists (fun xs v => poisson_pmf (nth 0 xs 0 * (1 / gp_B sh g)) (Z.to_nat v)). split.
    - intros gam HG u v. unfold gp_sampler_eval, sample_poisson, std_pmf, gp_sampler_init, sample_gamma, gp_plus_group.
      cbn [gp_alpha gp_inv_beta nadd nmul ndiv nof nlit NumR draws_from nth]. unfold gp_B. do 2 f_equal. rewrite Rdiv_1. reflexivity.
    - intros vs q (HR & HL). rewrite (gp_joint dl sh vs g q Ha Hb HR HL). apply gp_mean; [unfold gp_A | unfold gp_B]; lra.
  Qed.
End S.
