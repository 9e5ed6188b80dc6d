(** Samplers of the finite models: the law of their draws. *)
From Coq Require Import List Reals Lra Lia.
From Coquelicot Require Import Coquelicot.
From Verif.spec Require Import DrawSpec PartitionSpec RandomSpec.
From Verif.model Require Import Base Num NumR VectorMath Component Random BB DD GroupSampler.
From Verif.proof Require Import BaseProof RandomProof DirichletLaw.
Import ListNotations.
Local Open Scope R_scope.

(** ** The urn in the order of the draws *)
Fixpoint bump (l : list R) (i : nat) : list R :=
  match l, i with [], _ => [] | x :: t, O => (x + 1) :: t | x :: t, S i' => x :: bump t i' end.
Fixpoint polya (shapes : list R) (is : list nat) : R :=
  match is with [] => 1 | i :: t => nth i shapes 0 / rsum shapes * polya (bump shapes i) t end.

Lemma bump_length l i : length (bump l i) = length l.
Proof. revert i. induction l as [|x l IH]; intros [|i]; cbn; auto. Qed.
Lemma bump_sum l i : (i < length l)%nat -> rsum (bump l i) = rsum l + 1.
Proof. revert i. induction l as [|x l IH]; intros [|i] H; cbn in *; try lia; [lra |]. rewrite IH by lia. lra. Qed.
Lemma bump_nth l i j : (i < length l)%nat -> nth j (bump l i) 0 = nth j l 0 + kron i j.
Proof.
  unfold kron. revert i j. induction l as [|x l IH]; intros [|i] [|j] H; cbn in *; try lia; try lra. apply IH. lia.
Qed.
Lemma bump_pos l i : List.Forall (fun a => 0 < a) l -> List.Forall (fun a => 0 < a) (bump l i).
Proof. intros H. revert i. induction H as [|x l Hx Hl IH]; intros [|i]; cbn; constructor; auto; lra. Qed.
Lemma cnt_app j a b : cnt j (a ++ b) = cnt j a + cnt j b.
Proof. unfold cnt. induction a as [|x a IH]; cbn; [ring |]. rewrite IH. ring. Qed.
Lemma urn_snoc is : forall shapes i, (i < length shapes)%nat -> urn shapes (is ++ [i]) = nth i shapes 0 / rsum shapes * urn (bump shapes i) is.
Proof.
  induction is as [|j is IH]; intros shapes i Hi; cbn [app urn].
  - unfold cnt. cbn. rewrite !Rplus_0_r. reflexivity.
  - rewrite IH by exact Hi. rewrite cnt_app, bump_nth, bump_sum by exact Hi. rewrite app_length, plus_INR. cbn [length INR].
    unfold cnt at 2. cbn [map rsum]. rewrite Rplus_0_r.
    replace (nth j shapes 0 + (cnt j is + kron i j)) with (nth j shapes 0 + kron i j + cnt j is) by ring.
    replace (rsum shapes + (INR (length is) + 1)) with (rsum shapes + 1 + INR (length is)) by ring. ring.
Qed.
Lemma polya_urn is : forall shapes, List.Forall (fun i => (i < length shapes)%nat) is -> polya shapes is = urn shapes (rev is).
Proof.
  induction is as [|i is IH]; intros shapes H; cbn [polya rev]; [reflexivity |].
  inversion H; subst. rewrite urn_snoc by assumption. rewrite IH; [reflexivity |]. rewrite bump_length. assumption.
Qed.
Lemma shares_app a b xs : shares (a ++ b) xs = shares a xs * shares b xs.
Proof. unfold shares. induction a as [|i a IH]; cbn; [ring |]. rewrite IH. ring. Qed.
Lemma shares_rev is xs : shares (rev is) xs = shares is xs.
Proof. induction is as [|i is IH]; [reflexivity |]. cbn [rev]. rewrite shares_app, IH. unfold shares. cbn. ring. Qed.
Lemma gamma_mean_ext shapes f g v : (forall xs, f xs = g xs) -> gamma_mean shapes f v -> gamma_mean shapes g v.
Proof.
  intros E H. unfold gamma_mean in *. eapply is_lim_seq_ext; [| exact H]. intros n. cbv beta. f_equal.
  generalize (/ INR (S n)) (INR (S n)). intros a b. clear - E. revert f g E. induction shapes as [|x t IH]; intros f g E; cbn [box_integral]; [apply E |].
  apply RInt_ext. intros y _. f_equal. apply IH. intros xs. apply E.
Qed.
Lemma polya_mean shapes is : List.Forall (fun a => 0 < a) shapes -> List.Forall (fun i => (i < length shapes)%nat) is ->
  gamma_mean shapes (shares is) (polya shapes is).
Proof.
  intros HS HI. rewrite polya_urn by exact HI. apply (gamma_mean_ext _ (shares (rev is))); [intros; apply shares_rev |].
  apply dirichlet_moments; [exact HS |]. now apply List.Forall_rev.
Qed.

(** ** Normalised draws *)
Lemma draws_mapi gam shapes i : List.Forall (fun a => 0 < a) shapes -> mapi (dval gam) i shapes = draws_from gam i shapes.
Proof.
  intros H. revert i. induction H as [|a t Ha Ht IH]; intros i; cbn; [reflexivity |]. rewrite IH. f_equal.
  unfold dval. destruct (Rlt_dec 0 a); [reflexivity | lra].
Qed.
Lemma draws_length gam shapes i : length (draws_from gam i shapes) = length shapes.
Proof. revert i. induction shapes as [|a t IH]; intros i; cbn; auto. Qed.
Lemma draws_pos gam shapes i : positive_draws gam -> List.Forall (fun a => 0 < a) shapes -> List.Forall (fun a => 0 < a) (draws_from gam i shapes).
Proof. intros HG H. revert i. induction H; intros i; cbn; constructor; auto. Qed.
Lemma sum_pos xs : xs <> [] -> List.Forall (fun a => 0 < a) xs -> 0 < rsum xs.
Proof. intros Hne H. destruct H as [|x t Hx Ht]; [congruence |]. cbn. pose proof (rsum_nonneg t Ht). lra. Qed.
Lemma share_nth xs i : nth i (map (fun x => x * (1 / rsum xs)) xs) 0 = share i xs.
Proof.
  unfold share. replace 0 with ((fun x => x * (1 / rsum xs)) 0) at 1 by (cbv beta; ring).
  rewrite (map_nth (fun x => x * (1 / rsum xs))). unfold Rdiv. ring.
Qed.
Lemma cum_nil i : cum [] i = 0.
Proof. unfold cum. now rewrite firstn_nil. Qed.
Lemma cum_0 ps : cum ps 0 = 0.
Proof. reflexivity. Qed.
Lemma cum_cons p ps i : cum (p :: ps) (S i) = p + cum ps i.
Proof. reflexivity. Qed.
Lemma cum_S ps i : cum ps (S i) = cum ps i + nth i ps 0.
Proof.
  revert i. induction ps as [|p ps IH]; intros i; [rewrite !cum_nil; destruct i; cbn; lra |].
  destruct i as [|i]; rewrite ?cum_cons, ?cum_0; cbn [nth]; [lra |]. rewrite IH. lra.
Qed.
Lemma cum_le1 ps i : List.Forall (fun x => 0 <= x) ps -> rsum ps = 1 -> cum ps i <= 1.
Proof.
  intros H <-. revert i. induction H as [|p ps Hp Hps IH]; intros i; [rewrite cum_nil; cbn; lra |].
  destruct i as [|i]; rewrite ?cum_cons, ?cum_0; cbn [rsum].
  - assert (0 <= rsum ps); [clear - Hps; induction Hps; cbn; lra | lra].
  - specialize (IH i). lra.
Qed.
Lemma cum_ge0 ps i : List.Forall (fun x => 0 <= x) ps -> 0 <= cum ps i.
Proof.
  intros H. revert i. induction H as [|p ps Hp Hps IH]; intros i; [rewrite cum_nil; lra |].
  destruct i as [|i]; rewrite ?cum_cons, ?cum_0; [lra |]. specialize (IH i). lra.
Qed.

(** Scores that are shares of an urn, and additions that bump it, predict as the urn does. *)
Lemma predicted_polya {G V} (score : G -> V -> R -> Prop) (add : G -> V -> G -> Prop) (shapes : G -> list R) (idx : V -> nat)
    (okv : V -> Prop) (I : G -> Prop) :
  (forall g v s, score g v s -> I g -> (idx v < length (shapes g))%nat /\ exp s = nth (idx v) (shapes g) 0 / rsum (shapes g)) ->
  (forall g v s g', score g v s -> okv v -> add g v g' -> I g -> I g' /\ shapes g' = bump (shapes g) (idx v)) ->
  forall g vs r, predicted score add g vs r -> I g -> List.Forall okv (removelast vs) ->
    List.Forall (fun i => (i < length (shapes g))%nat) (map idx vs) /\ r = polya (shapes g) (map idx vs).
Proof.
  intros HS HA g vs r HL. induction HL as [g | g v s E | g v s g' vs r E EA HL IH]; intros HI HO.
  - split; [constructor | reflexivity].
  - destruct (HS g v s E HI) as [H1 H2]. split; [repeat constructor; exact H1 |]. cbn [map polya]. rewrite H2. ring.
  - destruct (HS g v s E HI) as [H1 H2]. cbn [map polya]. destruct vs as [|w ws].
    + cbn [map polya]. inversion HL; subst. split; [repeat constructor; exact H1 | rewrite H2; ring].
    + cbn [removelast] in HO. inversion HO as [|? ? Ov HO']; subst.
      destruct (HA g v s g' E Ov EA HI) as [HI' ES]. destruct (IH HI') as [IH1 IH2]; [exact HO' |].
      split; [constructor; [exact H1 |] | rewrite H2, IH2, ES; reflexivity].
      eapply List.Forall_impl; [| exact IH1]. intros i Hi. cbn in Hi. rewrite ES, bump_length in Hi. exact Hi.
Qed.

Section S.
  Variable lg : R -> R.
  #[local] Hint Extern 0 (Num R) => exact (NumR lg) : typeclass_instances.

  Lemma dirichlet_shares gam shapes : List.Forall (fun a => 0 < a) shapes ->
    sample_dirichlet gam (length shapes) None shapes =
    Ok (map (fun x => x * (1 / rsum (draws_from gam 0 shapes))) (draws_from gam 0 shapes)).
  Proof.
    intros H. rewrite <- (draws_mapi gam shapes 0 H). apply (dirichlet_R lg gam shapes shapes None eq_refl). right. auto.
  Qed.
  Lemma normal_sum xs : xs <> [] -> List.Forall (fun a => 0 < a) xs ->
    rsum (map (fun x => x * (1 / rsum xs)) xs) = 1 /\ List.Forall (fun x => 0 <= x) (map (fun x => x * (1 / rsum xs)) xs).
  Proof.
    intros Hne H. pose proof (sum_pos xs Hne H) as P. split.
    - rewrite (rsum_map_ext _ (fun x => 1 / rsum xs * x)) by (intros; ring).
      rewrite rsum_scal. rewrite map_id. field. lra.
    - apply List.Forall_map. eapply List.Forall_impl; [| exact H]. intros x Hx. cbv beta.
      apply Rmult_le_pos; [lra |]. left. apply Rdiv_lt_0_compat; lra.
  Qed.
  Lemma discrete_prob xs i : xs <> [] -> List.Forall (fun a => 0 < a) xs -> (i < length xs)%nat ->
    uniform_prob (fun u => sample_discrete u (map (fun x => x * (1 / rsum xs)) xs) = Ok i) (share i xs).
  Proof.
    intros Hne H Hi. destruct (normal_sum xs Hne H) as [HS HF]. set (ps := map (fun x => x * (1 / rsum xs)) xs) in *.
    assert (ps <> []) as Hp by (intros E; apply map_eq_nil in E; contradiction).
    assert (nth i ps 0 = share i xs) as En by apply share_nth.
    assert (length ps = length xs) as EL by apply map_length.
    exists (cum ps i). split; [now apply cum_ge0 |]. split.
    { rewrite <- En. destruct (nth_in_or_default i ps 0) as [K | ->]; [| lra]. apply (proj1 (List.Forall_forall _ _) HF _ K). }
    split; [rewrite <- En, <- cum_S; now apply cum_le1 |].
    intros u Hu. rewrite (discrete_cdf lg u ps i Hp HF HS Hu). rewrite cum_S, En, EL. tauto.
  Qed.

  (** ** BB *)
  Definition bb_shapes (sh : bb_shared R) (g : bb_group) : list R := [bb_alpha sh + IZR (bb_heads g); bb_beta sh + IZR (bb_tails g)].
  Definition side (v : bool) : nat := if v then 0%nat else 1%nat.
  Lemma bb_polya dl sh vs g r :
    predicted (fun g v s => bb_score_value sh g v = s) (fun g v g' => bb_add dl sh g v = Ok g') g vs r ->
    List.Forall (fun a => 0 < a) (bb_shapes sh g) ->
    r = polya (bb_shapes sh g) (map side vs).
  Proof.
    intros HL HP. refine (proj2 (predicted_polya _ _ (bb_shapes sh) side (fun _ => True) (fun g => List.Forall (fun a => 0 < a) (bb_shapes sh g)) _ _ g vs r HL HP _)).
    - intros g0 v s0 ES HP0. split; [destruct v; cbn; lia |].
      unfold bb_score_value, bb_scorer_eval, bb_scorer_init in ES. cbn [fst snd] in ES. subst s0.
      inversion HP0 as [|? ? H1 HP']; subst. inversion HP' as [|? ? H2 _]; subst.
      assert (0 < bb_alpha sh + IZR (bb_heads g0) + (bb_beta sh + IZR (bb_tails g0))) as H3 by lra.
      destruct v; cbn [nlog ndiv nadd nof NumR side nth bb_shapes rsum]; rewrite exp_ln by (apply Rdiv_lt_0_compat; lra);
        unfold bb_shapes; cbn; rewrite Rplus_0_r; reflexivity.
    - intros g0 v s0 g' _ _ EA HP0.
      assert (bb_shapes sh g' = bump (bb_shapes sh g0) (side v)) as EG.
      { unfold bb_add, bb_bump in EA. destruct v.
        - destruct (i32 (bb_heads g0 + 1)) as [h | |] eqn:E1; try discriminate. cbn in EA. injection EA as <-.
          unfold i32 in E1. destruct (_ && _)%bool in E1; [| discriminate]. injection E1 as <-. unfold bb_shapes. cbn. rewrite plus_IZR, Rplus_assoc. reflexivity.
        - destruct (i32 (bb_tails g0 + 1)) as [h | |] eqn:E1; try discriminate. cbn in EA. injection EA as <-.
          unfold i32 in E1. destruct (_ && _)%bool in E1; [| discriminate]. injection E1 as <-. unfold bb_shapes. cbn. rewrite plus_IZR, Rplus_assoc. reflexivity. }
      split; [rewrite EG; now apply bump_pos | exact EG].
    - apply List.Forall_forall. auto.
  Qed.
  Lemma bb_init_eq gam sh g : List.Forall (fun a => 0 < a) (bb_shapes sh g) ->
    bb_sampler_init gam sh g = Ok (share 0 (draws_from gam 0 (bb_shapes sh g))).
  Proof.
    intros H. unfold bb_sampler_init. cbn [nadd nof NumR]. fold (bb_shapes sh g).
    change 2%nat with (length (bb_shapes sh g)) at 1. rewrite (dirichlet_shares gam _ H). cbn [obind bb_shapes draws_from map vget nth_error].
    f_equal. unfold share. cbn. unfold Rdiv. ring.
  Qed.
  Lemma ok_inj {A} (a b : A) : Ok a = Ok b -> a = b.
  Proof. intros H. now injection H. Qed.
  Lemma bern_true u s : bb_sampler_eval u s = true <-> u < s.
  Proof.
    unfold bb_sampler_eval, sample_bernoulli. cbn [nltb NumR]. unfold rltb. destruct (Rlt_dec u s); split; intros; try lra; try discriminate; auto.
  Qed.
  Lemma bern_false u s : bb_sampler_eval u s = false <-> s <= u.
  Proof.
    unfold bb_sampler_eval, sample_bernoulli. cbn [nltb NumR]. unfold rltb. destruct (Rlt_dec u s); split; intros; try lra; try discriminate; auto.
  Qed.
  Theorem bb_draws dl sh g : List.Forall (fun a => 0 < a) (bb_shapes sh g) ->
    draws_follow (bb_shapes sh g)
      (fun gam u v => exists s, bb_sampler_init gam sh g = Ok s /\ bb_sampler_eval u s = v)
      (predicted (fun g v s => bb_score_value sh g v = s) (fun g v g' => bb_add dl sh g v = Ok g') g).
  Proof.
    intros HP. exists (fun xs v => share (side v) xs). split.
    - intros gam HG v. pose proof (draws_pos gam _ 0 HG HP) as DP. set (xs := draws_from gam 0 (bb_shapes sh g)) in *.
      assert (exists x y, xs = [x; y]) as (x & y & Exs) by (unfold xs; cbn; eauto).
      rewrite Exs in DP. inversion DP as [|? ? Px DP']; subst. inversion DP' as [|? ? Py _]; subst.
      assert (0 <= share 0 xs <= 1 /\ share 1 xs = 1 - share 0 xs) as [HS0 HS1].
      { rewrite Exs. unfold share. cbn. rewrite Rplus_0_r. split; [split |].
        - left. apply Rdiv_lt_0_compat; lra.
        - apply Rmult_le_reg_r with (x + y); [lra |]. unfold Rdiv. rewrite Rmult_assoc, Rinv_l by lra. lra.
        - field. lra. }
      destruct v; cbn [side].
      + exists 0. split; [lra |]. split; [lra |]. split; [lra |]. intros u Hu. rewrite Rplus_0_l. split.
        * intros (s & E & E2). rewrite (bb_init_eq gam sh g HP) in E. apply ok_inj in E. fold xs in E. subst s. apply bern_true in E2. lra.
        * intros Hu2. exists (share 0 xs). split; [apply bb_init_eq, HP |]. apply bern_true. lra.
      + exists (share 0 xs). split; [lra |]. split; [lra |]. split; [lra |]. intros u Hu. split.
        * intros (s & E & E2). rewrite (bb_init_eq gam sh g HP) in E. apply ok_inj in E. fold xs in E. subst s. apply bern_false in E2. lra.
        * intros Hu2. exists (share 0 xs). split; [apply bb_init_eq, HP |]. apply bern_false. lra.
    - intros vs r HL. rewrite (bb_polya dl sh vs g r HL HP).
      apply (gamma_mean_ext _ (shares (map side vs))).
      + intros xs. unfold shares, product. clear. induction vs as [|v vs IH]; cbn; [reflexivity |]. now rewrite IH.
      + apply polya_mean; [exact HP |]. apply List.Forall_map. apply List.Forall_forall. intros [|] _; cbn; lia.
  Qed.
End S.
