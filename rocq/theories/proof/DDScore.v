(** Dirichlet-discrete scores in exact arithmetic. *)
From Coq Require Import Permutation Reals Lra.
From Verif.model Require Import Base Num NumR VectorMath Component Slave DD.
From Verif.spec Require Import GroupSpec GaussSpec LgammaSpec VectorSpec.
From Verif.proof Require Import BaseProof GroupProof BBProof VectorProof LoopProof DDProof LgammaProof NICHProof ScoreProof.
Local Open Scope R_scope.

Lemma sumf_update f g n v : (v < n)%nat -> (forall i, (i < n)%nat -> i <> v -> f i = g i) -> sumf f n = sumf g n + (f v - g v).
Proof.
  intros Hv H. induction n as [|n IH]; [lia|]. cbn [sumf].
  destruct (Nat.eq_dec v n) as [->|Ne].
  - rewrite (sumf_ext f g n); [lra|]. intros i Hi. apply H; lia.
  - rewrite IH by (try lia; intros; apply H; lia). rewrite (H n) by lia. lra.
Qed.
Lemma sumf_plus f g n : sumf (fun i => f i + g i) n = sumf f n + sumf g n.
Proof. induction n; simpl; lra. Qed.
Lemma sumf_zero n : sumf (fun _ => 0) n = 0.
Proof. induction n; simpl; lra. Qed.
Lemma sumf_scal c f n : sumf (fun i => c * f i) n = c * sumf f n.
Proof. induction n; simpl; [lra|]. rewrite IHn. lra. Qed.
Lemma sumf_pos f n : (0 < n)%nat -> (forall i, (i < n)%nat -> 0 < f i) -> 0 < sumf f n.
Proof.
  intro Hn. induction n as [|n IH]; [lia|]. intro H. cbn [sumf].
  destruct n; [simpl; rewrite Rplus_0_l; apply H; lia|].
  assert (0 < sumf f (S n)) by (apply IH; [lia|]; intros; apply H; lia).
  assert (0 < f (S n)) by (apply H; lia). lra.
Qed.
Lemma sumf_nonneg f n : (forall i, (i < n)%nat -> 0 <= f i) -> 0 <= sumf f n.
Proof. induction n as [|n IH]; intro H; cbn [sumf]; [lra|]. assert (0 <= sumf f n) by (apply IH; intros; apply H; lia). assert (0 <= f n) by (apply H; lia). lra. Qed.

Definition rn (l : list R) (i : nat) : R := nth i l 0.
Definition cn (g : dd_group) (i : nat) : R := IZR (nth i (dd_counts g) 0%Z).

Lemma vget_rn (l : list R) i : (i < length l)%nat -> vget l i = Ok (rn l i).
Proof. intro H. unfold vget, rn. now rewrite (nth_error_nth' l 0 H). Qed.
Lemma nth_rn (l : list R) i : (i < length l)%nat -> nth_error l i = Some (rn l i).
Proof. intro H. now apply nth_error_nth'. Qed.
Lemma vget_cn g i : (i < length (dd_counts g))%nat -> exists c, vget (dd_counts g) i = Ok c /\ IZR c = cn g i.
Proof. intro H. exists (nth i (dd_counts g) 0%Z). split; [|reflexivity]. unfold vget. now rewrite (nth_error_nth' _ 0%Z H). Qed.

Definition asum (al : list R) : R := sumf (rn al) (length al).
Definition dd_sd (lg : R -> R) (al : list R) (g : dd_group) : R :=
  sumf (fun i => lg (rn al i + cn g i) - lg (rn al i)) (length al) + (lg (asum al) - lg (asum al + IZR (dd_count_sum g))).

Section S.
  Variable lg : R -> R.
  Let NR : Num R := NumR lg.
  Existing Instance NR.

  Lemma dd_score_data_eq (sh : dd_shared R) g : length (dd_counts g) = dd_dim sh ->
    dd_score_data sh g = Ok (dd_sd lg (dd_alphas sh) g).
  Proof.
    intro L. unfold dd_score_data. rewrite L.
    destruct (vfor_inv (fun i (p : R * R) => fst p = sumf (rn (dd_alphas sh)) i /\
        snd p = sumf (fun i => lg (rn (dd_alphas sh) i + cn g i) - lg (rn (dd_alphas sh) i)) i)
      (fun i (p : R * R) => let* alpha := vget (dd_alphas sh) i in let* c := vget (dd_counts g) i in
        Ok ((fst p + alpha)%num, (snd p + (nlgamma (alpha + nof c) - nlgamma alpha))%num)) (dd_dim sh) 0 (0, 0))
      as (p & E & [P1 P2]).
    - split; reflexivity.
    - intros i p Hi [P1 P2]. rewrite vget_rn by (unfold dd_dim in Hi; lia). cbn [obind].
      destruct (vget_cn g i) as (c & -> & Hc); [lia|]. cbn [obind].
      eexists. split; [reflexivity|]. cbn [fst snd]. cbn [nof nadd nsub nlgamma NR NumR].
      rewrite P1, P2, Hc. split; reflexivity.
    - change (nof 0, nof 0) with (0, 0) in *. rewrite E. cbn [obind]. f_equal. unfold dd_sd, asum.
      cbn [nof nadd nsub nlgamma NR NumR]. cbn [Nat.add] in P1, P2. rewrite P1, P2. reflexivity.
  Qed.

  Lemma dd_scorer_init_eq (sh : dd_shared R) g : length (dd_counts g) = dd_dim sh ->
    exists ps, dd_scorer_init sh g = Ok (sumf (fun i => rn (dd_alphas sh) i + cn g i) (dd_dim sh), ps) /\
      length ps = dd_dim sh /\ forall i, (i < dd_dim sh)%nat -> nth_error ps i = Some (rn (dd_alphas sh) i + cn g i).
  Proof.
    intro L. unfold dd_scorer_init.
    destruct (vfor_inv (fun i (p : R * list R) => fst p = sumf (fun i => rn (dd_alphas sh) i + cn g i) i /\
        length (snd p) = i /\ forall j, (j < i)%nat -> nth_error (snd p) j = Some (rn (dd_alphas sh) j + cn g j))
      (fun i (s : R * list R) => let* a := vget (dd_alphas sh) i in let* c := vget (dd_counts g) i in
        let alpha := (a + nof c)%num in Ok ((fst s + alpha)%num, snd s ++ [alpha])) (dd_dim sh) 0 (0, []))
      as (p & E & P1 & P2 & P3).
    - split; [reflexivity|]. split; [reflexivity|]. intros; lia.
    - intros i p Hi (P1 & P2 & P3). rewrite vget_rn by (unfold dd_dim in Hi; lia). cbn [obind].
      destruct (vget_cn g i) as (c & -> & Hc); [lia|]. cbn [obind].
      eexists. split; [reflexivity|]. cbn [fst snd]. cbn [nof nadd nsub nlgamma NR NumR]. rewrite P1, Hc.
      split; [reflexivity|]. split; [rewrite app_length, P2; cbn [length]; lia|].
      intros j Hj. destruct (Nat.eq_dec j i) as [->|Ne].
      + rewrite nth_error_app2 by lia. rewrite P2, Nat.sub_diag. reflexivity.
      + rewrite nth_error_app1 by lia. apply P3. lia.
    - exists (snd p). cbn [Nat.add] in *. rewrite <- P1.
      split; [rewrite <- surjective_pairing; exact E|]. split; [exact P2|exact P3].
  Qed.

  Lemma dd_score_value_eq dl (sh : dd_shared R) g v : length (dd_counts g) = dd_dim sh -> (v < dd_dim sh)%nat ->
    dd_score_value dl sh g (Z.of_nat v) =
    Ok (ln ((rn (dd_alphas sh) v + cn g v) / sumf (fun i => rn (dd_alphas sh) i + cn g i) (dd_dim sh))).
  Proof.
    intros L Hv. unfold dd_score_value. destruct (dd_scorer_init_eq sh g L) as (ps & -> & Lp & Hp). cbn [obind].
    unfold dd_scorer_eval. rewrite dassert_at_true by (apply Z.ltb_lt; lia). cbn [obind fst snd].
    rewrite (zget_nth _ _ _ (Hp v Hv)). reflexivity.
  Qed.

  (** Normalisation. *)
  Lemma dd_norm dl (sh : dd_shared R) g : length (dd_counts g) = dd_dim sh -> (0 < dd_dim sh)%nat ->
    List.Forall (fun a => 0 < a) (dd_alphas sh) -> List.Forall (fun c => (0 <= c)%Z) (dd_counts g) ->
    exists f, (forall v, (v < dd_dim sh)%nat -> dd_score_value dl sh g (Z.of_nat v) = Ok (f v)) /\
      sumf (fun v => exp (f v)) (dd_dim sh) = 1.
  Proof.
    intros L D Ha Hc.
    set (T := sumf (fun i => rn (dd_alphas sh) i + cn g i) (dd_dim sh)).
    assert (Pp : forall i, (i < dd_dim sh)%nat -> 0 < rn (dd_alphas sh) i + cn g i).
    { intros i Hi. rewrite Forall_forall in Ha, Hc.
      assert (0 < rn (dd_alphas sh) i) by (apply Ha; apply nth_In; exact Hi).
      assert (0 <= cn g i) by (apply (IZR_le 0); apply Hc; apply nth_In; lia). lra. }
    assert (HT : 0 < T) by (apply sumf_pos; auto).
    exists (fun v => ln ((rn (dd_alphas sh) v + cn g v) / T)). split.
    - intros v Hv. now apply dd_score_value_eq.
    - rewrite (sumf_ext _ (fun v => / T * (rn (dd_alphas sh) v + cn g v))).
      + rewrite sumf_scal. fold T. field. lra.
      + intros i Hi. rewrite exp_ln by (apply Rdiv_lt_0_compat; auto). unfold Rdiv. lra.
  Qed.

  (** Tallies. *)
  Lemma cn_tally dim l i : (i < dim)%nat -> cn (dd_stat dim l) i = INR (count_occ BinInt.Z.eq_dec l (Z.of_nat i)).
  Proof.
    intro Hi. unfold cn, dd_stat. cbn [dd_counts]. rewrite (nth_error_nth _ i 0%Z (tally_nth dim l i Hi)).
    symmetry. apply INR_IZR_INZ.
  Qed.
  Lemma sum_count dim l : List.Forall (fun v => (0 <= v < Z.of_nat dim)%Z) l ->
    sumf (fun i => INR (count_occ BinInt.Z.eq_dec l (Z.of_nat i))) dim = INR (length l).
  Proof.
    induction 1 as [|v l Hv _ IH]; [cbn; apply sumf_zero|].
    rewrite (sumf_update _ (fun i => INR (count_occ BinInt.Z.eq_dec l (Z.of_nat i))) dim (Z.to_nat v)).
    - rewrite IH. cbn [length count_occ]. destruct (BinInt.Z.eq_dec v (Z.of_nat (Z.to_nat v))); [|lia].
      rewrite !S_INR. lra.
    - lia.
    - intros i Hi Ne. cbn [count_occ]. destruct (BinInt.Z.eq_dec v (Z.of_nat i)); [lia|reflexivity].
  Qed.

  Lemma dd_step (Hlg : lgamma_like lg) dl (sh : dd_shared R) k v : in_dim (dd_dim sh) (v :: k) ->
    List.Forall (fun a => 0 < a) (dd_alphas sh) ->
    dd_score_value dl sh (dd_stat (dd_dim sh) k) v =
    Ok (dd_sd lg (dd_alphas sh) (dd_stat (dd_dim sh) (v :: k)) - dd_sd lg (dd_alphas sh) (dd_stat (dd_dim sh) k)).
  Proof.
    intros Hin Ha. destruct (in_dim_nat _ _ _ Hin) as (j & -> & Hj).
    rewrite dd_score_value_eq by (cbn [dd_stat dd_counts]; auto using tally_length). f_equal.
    unfold dd_sd. fold (dd_dim sh).
    assert (Fk : List.Forall (fun v => (0 <= v < Z.of_nat (dd_dim sh))%Z) k) by (destruct Hin as [_ F]; now inversion F).
    rewrite (sumf_update (fun i => lg (rn (dd_alphas sh) i + cn (dd_stat (dd_dim sh) (Z.of_nat j :: k)) i) - lg (rn (dd_alphas sh) i))
      (fun i => lg (rn (dd_alphas sh) i + cn (dd_stat (dd_dim sh) k) i) - lg (rn (dd_alphas sh) i)) (dd_dim sh) j Hj).
    2:{ intros i Hi Ne. rewrite !cn_tally by exact Hi. cbn [count_occ].
        destruct (BinInt.Z.eq_dec (Z.of_nat j) (Z.of_nat i)); [lia|reflexivity]. }
    rewrite sumf_plus.
    rewrite (sumf_ext (cn (dd_stat (dd_dim sh) k)) (fun i => INR (count_occ BinInt.Z.eq_dec k (Z.of_nat i)))) by (intros; now apply cn_tally).
    rewrite sum_count by exact Fk. rewrite !cn_tally by exact Hj. cbn [count_occ].
    destruct (BinInt.Z.eq_dec (Z.of_nat j) (Z.of_nat j)); [|lia].
    cbn [dd_stat dd_count_sum length]. rewrite IZRS, <- INR_IZR_INZ, S_INR.
    change (sumf (rn (dd_alphas sh)) (dd_dim sh)) with (asum (dd_alphas sh)).
    rewrite Forall_forall in Ha.
    assert (A1 : 0 < rn (dd_alphas sh) j) by (apply Ha, nth_In; exact Hj).
    assert (A2 : 0 < asum (dd_alphas sh)).
    { apply sumf_pos; [fold (dd_dim sh); lia|]. intros i Hi. apply Ha, nth_In, Hi. }
    pose proof (pos_INR (count_occ BinInt.Z.eq_dec k (Z.of_nat j))) as B1. pose proof (pos_INR (length k)) as B2.
    rewrite <- !Rplus_assoc. rewrite !(lg_succ lg Hlg) by lra. rewrite ln_div by lra. lra.
  Qed.

  Lemma dd_sd_empty (sh : dd_shared R) : dd_score_data sh (dd_init sh) = Ok 0.
  Proof.
    change (dd_init sh) with (c_init (DD R) sh). rewrite dd_init_stat.
    rewrite dd_score_data_eq by (cbn; apply tally_length). f_equal. unfold dd_sd. fold (dd_dim sh).
    rewrite (sumf_ext _ (fun _ => 0)).
    - rewrite sumf_zero. cbn [dd_stat dd_count_sum length]. change (Z.of_nat 0) with 0%Z. rewrite Rplus_0_r. lra.
    - intros i Hi. rewrite cn_tally by exact Hi. cbn. rewrite Rplus_0_r. lra.
  Qed.

  Lemma dd_chain (Hlg : lgamma_like lg) dl (sh : dd_shared R) (l : list Z) : in_dim (dd_dim sh) l ->
    List.Forall (fun a => 0 < a) (dd_alphas sh) ->
    c_chain (DD R) dl sh 0 Rplus (dd_score_value dl) (c_init (DD R) sh) l = dd_score_data sh (dd_stat (dd_dim sh) l).
  Proof.
    intros Hl Ha. rewrite dd_init_stat.
    rewrite (chain_stat (DD R) dl sh (dd_stat (dd_dim sh)) (in_dim (dd_dim sh)) (dd_stat_perm (dd_dim sh))
        (in_dim_perm (dd_dim sh)) (in_dim_tail (dd_dim sh)) (dd_add_stat dl sh) _ (dd_sd lg (dd_alphas sh))) with (k := []).
    - rewrite dd_score_data_eq by (cbn; apply tally_length). f_equal. rewrite app_nil_r.
      pose proof (dd_sd_empty sh) as E. change (dd_init sh) with (c_init (DD R) sh) in E. rewrite dd_init_stat in E.
      rewrite dd_score_data_eq in E by (cbn; apply tally_length). injection E as E.
      cbn [value_t DD] in *. rewrite E. lra.
    - intros k v Hk. now apply dd_step.
    - now rewrite app_nil_r.
  Qed.
End S.
