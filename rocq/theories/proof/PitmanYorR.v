From Coq Require Import Reals Lra Permutation.
From Verif.model Require Import Base Packed Driver DriverRun Num NumR PitmanYor PitmanYorRun.
From Verif.spec Require Import DriverSpec PartitionSpec LgammaSpec.
From Verif.proof Require Import BaseProof DriverProof PitmanYorProof LgammaProof.
From stdpp Require Import gmap.
Local Open Scope R_scope.

Definition py_ok (m : py R) : Prop := 0 < alpha m /\ 0 <= disc m < 1.

Section R.
  Variable lg : R -> R.
  Local Instance NR : Num R := NumR lg.

  Lemma IZR_nn (z : Z) : (0 <= z)%Z -> 0 <= IZR z.
  Proof. intro. apply (IZR_le 0). lia. Qed.
  Lemma IZR_ge1 (z : Z) : (0 < z)%Z -> 1 <= IZR z.
  Proof. intro. apply (IZR_le 1). lia. Qed.

  Lemma cached_eq_direct m cs c : py_ok m -> Forall (fun c => 0 <= c)%Z cs -> In 0%Z cs -> (0 <= c)%Z ->
    fS m (fE m cs) c + - ln (IZR (sum_sizes cs) + alpha m) =
    py_score_add m c (Z.of_nat (length cs - num_empty cs)) (sum_sizes cs) (Z.of_nat (num_empty cs)).
  Proof.
    intros [Ha [Hd0 Hd1]] Hp Hz Hc. unfold py_score_add, fS, fE, fN. cbn [nof nlog nadd nsub nmul ndiv nneg NR NumR].
    pose proof (IZR_nn _ (sum_sizes_nonneg _ Hp)) as Hn.
    assert (Hle : (num_empty cs <= length cs)%nat) by apply count_occ_bound.
    apply num_empty_In in Hz.
    assert (He : 1 <= IZR (Z.of_nat (num_empty cs))) by (apply IZR_ge1; lia).
    destruct (Z.eqb_spec c 0) as [->|Hc0].
    - replace (Z.of_nat (length cs) - Z.of_nat (num_empty cs))%Z with (Z.of_nat (length cs - num_empty cs)) by lia.
      assert (Hk : 0 <= IZR (Z.of_nat (length cs - num_empty cs))) by (apply IZR_nn; lia).
      set (K := IZR (Z.of_nat (length cs - num_empty cs))) in *. set (E := IZR (Z.of_nat (num_empty cs))) in *. set (n := IZR (sum_sizes cs)) in *.
      assert (0 < alpha m + disc m * K) by (pose proof (Rmult_le_pos _ _ Hd0 Hk); lra).
      rewrite <- ln_Rinv by lra. rewrite <- ln_mult.
      + f_equal. field. lra.
      + apply Rdiv_lt_0_compat; lra.
      + apply Rinv_0_lt_compat; lra.
    - pose proof (IZR_ge1 c ltac:(lia)).
      rewrite <- ln_Rinv by lra. rewrite <- ln_mult by (try apply Rinv_0_lt_compat; lra). reflexivity.
  Qed.

  Lemma py_scores_are_predictive dl m old cs ops sizes outs : py_ok m ->
    sizes_ok cs -> dhistory cs ops sizes outs ->
    exists c0 c, py_init dl m old cs = Ok c0 /\ pyrun dl m c0 ops = Ok (c, outs) /\
      py_score_value dl m c (length sizes) =
      Ok (map (fun n => py_score_add m n (Z.of_nat (length sizes - num_empty sizes))
                          (sum_sizes sizes) (Z.of_nat (num_empty sizes))) sizes).
  Proof.
    intros Hm Hok Hh. destruct (py_init_ok dl m old cs Hok) as (c0 & E0 & H0 & Hc0). subst cs.
    destruct (py_run_ok dl m ops c0 sizes outs H0 Hh) as (c & E & H & Hc). subst sizes.
    exists c0, c. split; [exact E0|]. split; [exact E|]. rewrite py_score_value_ok by exact H.
    f_equal. pose proof (pi_d _ _ H) as Hd. apply map_ext_in. intros n Hn.
    cbn [nof nlog nadd nneg NR NumR]. apply cached_eq_direct; [exact Hm| | |].
    - apply Hd. - apply Hd.
    - pose proof (dinv_nonneg _ Hd) as Hf. rewrite List.Forall_forall in Hf. auto.
  Qed.

  (** The cached scores agree with the uncached MixtureDriver::score_value. *)
  Lemma py_cached_eq_uncached dl m old cs ops sizes outs : py_ok m ->
    sizes_ok cs -> dhistory cs ops sizes outs ->
    exists c0 c scores, py_init dl m old cs = Ok c0 /\ pyrun dl m c0 ops = Ok (c, outs) /\
      py_score_value dl m c (length sizes) = Ok scores /\
      py_driver_score_value dl m (cdriver c) (length sizes) = Ok scores.
  Proof.
    intros Hm Hok Hh. destruct (py_init_ok dl m old cs Hok) as (c0 & E0 & H0 & Hc0). subst cs.
    destruct (py_run_ok dl m ops c0 sizes outs H0 Hh) as (c & E & H & Hc). subst sizes.
    pose proof (pi_d _ _ H) as Hd.
    exists c0, c. eexists. split; [exact E0|]. split; [exact E|]. split; [apply py_score_value_ok; exact H|].
    unfold py_driver_score_value. rewrite dassert_at_true by apply Nat.eqb_refl. cbn [obind].
    rewrite Nat.ltb_irrefl. f_equal. apply map_ext_in. intros n Hn.
    cbn [nof nlog nadd nneg NR NumR]. rewrite cached_eq_direct; [|exact Hm|apply Hd|apply Hd|].
    - rewrite (empties_size _ _ (dinv_empties _ Hd)), (dinv_size _ Hd). f_equal.
      assert ((num_empty (counts (cdriver c)) <= length (counts (cdriver c)))%nat) by apply count_occ_bound. lia.
    - pose proof (dinv_nonneg _ Hd) as Hf. rewrite List.Forall_forall in Hf. auto.
  Qed.

  (** Normalisation *)
  Definition wt (m : py R) (n K E : R) (c : Z) : R :=
    if (c =? 0)%Z then (alpha m + disc m * K) / ((n + alpha m) * E) else (IZR c - disc m) / (n + alpha m).

  Lemma exp_score m c K n E : py_ok m -> (0 <= c)%Z -> (0 <= n)%Z -> (0 <= K)%Z -> (0 < E)%Z ->
    exp (py_score_add m c K n E) = wt m (IZR n) (IZR K) (IZR E) c /\ 0 < wt m (IZR n) (IZR K) (IZR E) c.
  Proof.
    intros [Ha [Hd0 Hd1]] Hc Hn HK HE. unfold py_score_add, wt. cbn [nof nlog nadd nsub nmul ndiv nneg NR NumR].
    pose proof (IZR_nn _ Hn). pose proof (IZR_nn _ HK) as HK'. pose proof (IZR_ge1 _ HE).
    destruct (Z.eqb_spec c 0) as [->|Hc0].
    - assert (0 < (alpha m + disc m * IZR K) / ((IZR n + alpha m) * IZR E)).
      { pose proof (Rmult_le_pos _ _ Hd0 HK'). apply Rdiv_lt_0_compat; [lra|]. apply Rmult_lt_0_compat; lra. }
      rewrite exp_ln by auto. auto.
    - pose proof (IZR_ge1 c ltac:(lia)).
      assert (0 < (IZR c - disc m) / (IZR n + alpha m)) by (apply Rdiv_lt_0_compat; lra).
      rewrite exp_ln by auto. auto.
  Qed.

  Lemma sum_wt m n K E l : (0 <= n) -> py_ok m -> 0 < E -> Forall (fun c => 0 <= c)%Z l ->
    rsum (map (wt m n K E) l) =
      (IZR (sum_sizes l) - disc m * INR (length l - num_empty l)) / (n + alpha m)
      + INR (num_empty l) * ((alpha m + disc m * K) / ((n + alpha m) * E)).
  Proof.
    intros Hn [Ha Hd] HE. induction 1 as [|c l Hc Hl IH]; [simpl; lra|].
    cbn [map rsum sum_sizes]. rewrite IH. clear IH.
    assert (Hle : (num_empty l <= length l)%nat) by apply count_occ_bound.
    unfold wt. rewrite num_empty_cons. cbn [length].
    destruct (Z.eqb_spec c 0) as [->|Hc0]; (destruct (BinInt.Z.eq_dec _ 0); [|lia]) || (destruct (BinInt.Z.eq_dec _ 0); [lia|]).
    - replace (S (length l) - (1 + num_empty l))%nat with (length l - num_empty l)%nat by lia.
      replace (1 + num_empty l)%nat with (S (num_empty l)) by lia. rewrite S_INR.
      replace (0 + sum_sizes l)%Z with (sum_sizes l) by lia. lra.
    - replace (S (length l) - (0 + num_empty l))%nat with (S (length l - num_empty l))%nat by lia.
      rewrite S_INR, plus_IZR. simpl (0 + num_empty l)%nat. field. lra.
  Qed.

  Lemma rsum_pos l x : Forall (fun y => 0 < y) l -> In x l -> x <= rsum l /\ ((2 <= length l)%nat -> x < rsum l).
  Proof.
    assert (Hnn : forall l, Forall (fun y => 0 < y) l -> 0 <= rsum l /\ ((1 <= length l)%nat -> 0 < rsum l)).
    { induction 1 as [|y l0 Hy Hl IH]; simpl; [split; [lra|lia]|]. split; [|intros _]; lra. }
    induction 1 as [|y l0 Hy Hl IH]; simpl; intro Hi; [tauto|].
    destruct (Hnn l0 Hl) as [N1 N2]. destruct Hi as [->|Hi].
    - split; [lra|]. intro. assert (0 < rsum l0) by (apply N2; lia). lra.
    - destruct (IH Hi). split; [lra|]. intro. lra.
  Qed.

  Lemma py_normalised dl m old cs ops sizes outs : py_ok m ->
    sizes_ok cs -> dhistory cs ops sizes outs ->
    exists c0 c scores, py_init dl m old cs = Ok c0 /\ pyrun dl m c0 ops = Ok (c, outs) /\
      py_score_value dl m c (length sizes) = Ok scores /\
      rsum (map exp scores) = 1 /\
      (forall s, In s scores -> 0 < exp s <= 1 /\ ((2 <= length sizes)%nat -> exp s < 1)).
  Proof.
    intros Hm Hok Hh.
    destruct (py_scores_are_predictive dl m old _ _ _ _ Hm Hok Hh) as (c0 & c & E0 & E & Es).
    assert (Hs : Forall (fun c => 0 <= c)%Z sizes /\ In 0%Z sizes).
    { destruct (py_init_ok dl m old cs Hok) as (c0' & E0' & H0 & Hc0). subst cs.
      destruct (py_run_ok dl m ops c0' sizes outs H0 Hh) as (c' & _ & H & Hc). subst sizes.
      split; apply (pi_d _ _ H). }
    destruct Hs as [Hp Hz]. apply num_empty_In in Hz.
    exists c0, c. eexists. split; [exact E0|]. split; [exact E|]. split; [exact Es|].
    pose proof (sum_sizes_nonneg _ Hp) as Hn.
    assert (Hle : (num_empty sizes <= length sizes)%nat) by apply count_occ_bound.
    set (K := Z.of_nat (length sizes - num_empty sizes)) in *. set (EE := Z.of_nat (num_empty sizes)) in *.
    assert (Hsum : rsum (map exp (map (fun n => py_score_add m n K (sum_sizes sizes) EE) sizes)) = 1).
    { rewrite map_map. rewrite (map_ext_in _ (wt m (IZR (sum_sizes sizes)) (IZR K) (IZR EE))).
      2:{ intros n Hi. rewrite List.Forall_forall in Hp. apply exp_score; auto; unfold K, EE; lia. }
      pose proof (IZR_nn _ Hn) as Hn'. assert (HE : 1 <= IZR EE) by (apply IZR_ge1; unfold EE; lia).
      rewrite sum_wt; auto; [|lra].
      replace (INR (length sizes - num_empty sizes)) with (IZR K) by (unfold K; now rewrite <- INR_IZR_INZ).
      replace (INR (num_empty sizes)) with (IZR EE) by (unfold EE; now rewrite <- INR_IZR_INZ).
      destruct Hm as [Ha Hd]. field. lra. }
    split; [exact Hsum|]. intros s Hi.
    assert (Hpos : Forall (fun y => 0 < y) (map exp (map (fun n => py_score_add m n K (sum_sizes sizes) EE) sizes))).
    { apply List.Forall_forall. intros y Hy. apply in_map_iff in Hy. destruct Hy as (x & <- & _). apply exp_pos. }
    assert (Hi' := in_map exp _ _ Hi).
    destruct (rsum_pos _ _ Hpos Hi') as [P1 P2]. rewrite Hsum in P1, P2. rewrite !map_length in P2.
    split; [split; [apply exp_pos|exact P1]|exact P2].
  Qed.

  (** score_counts *)
  Definition fA (m : py R) (k : nat) := sumf (fun j => ln (alpha m + disc m * INR j)) k.
  Definition fB (m : py R) (c : nat) := sumf (fun i => ln (1 - disc m + INR i)) (c - 1).
  Definition fC (m : py R) (n : nat) := sumf (fun i => ln (alpha m + INR i)) n.
  Definition nz (l : list nat) : nat := length (List.filter (fun c => negb (c =? 0)%nat) l).
  Definition natsum (l : list nat) : nat := fold_right Nat.add O l.
  Definition closed (m : py R) (l : list nat) : R :=
    fA m (nz l) + rsum (map (fB m) l) - fC m (natsum l).

  Lemma term_pos m k : py_ok m -> 0 < alpha m + disc m * INR k.
  Proof. intros [Ha [Hd _]]. pose proof (Rmult_le_pos _ _ Hd (pos_INR k)). lra. Qed.

  Hypothesis Hlg : lgamma_like lg.

  Lemma loop_closed m cs : py_ok m -> forall score n K,
    py_score_counts_loop m score (Z.of_nat n) (Z.of_nat K) (map Z.of_nat cs) =
    score + (fA m (K + nz cs) - fA m K) + rsum (map (fB m) cs) - (fC m (n + natsum cs) - fC m n).
  Proof.
    intro Hm. pose proof Hm as [Ha [Hd0 Hd1]].
    induction cs as [|c cs IH]; intros score n K; cbn [map py_score_counts_loop rsum].
    - unfold nz. simpl. rewrite !Nat.add_0_r. lra.
    - destruct c as [|c].
      + simpl (Z.of_nat 0 =? 0)%Z. cbn iota. rewrite IH. unfold nz, fB at 2. simpl. lra.
      + destruct (Z.eqb_spec (Z.of_nat (S c)) 0); [lia|].
        set (score' := if (Z.of_nat (S c) =? 1)%Z then _ else _).
        assert (Hsc : score' = score + ln (alpha m + disc m * INR K) + fB m (S c) - (fC m (n + S c) - fC m n)).
        { unfold fC. rewrite sumf_add. unfold fB. cbn [Nat.sub]. rewrite Nat.sub_0_r.
          pose proof (term_pos m K Hm) as Hb. pose proof (pos_INR n) as Hn0. pose proof (pos_INR K) as HK0.
          unfold score'. cbn [nof nlog nadd nsub nmul ndiv nneg NR NumR log_ratio lgamma_ratio nlgamma].
          unfold log_ratio, lgamma_ratio. cbn [nof nlog nadd nsub nmul ndiv nneg NR NumR nlgamma].
          rewrite <- !INR_IZR_INZ.
          destruct (Z.eqb_spec (Z.of_nat (S c)) 1).
          { assert (c = 0%nat) by lia. subst c. simpl. rewrite Nat.add_0_r. rewrite ln_div by lra. lra. }
          destruct (Z.eqb_spec (Z.of_nat (S c)) 2).
          { assert (c = 1%nat) by lia. subst c. cbn [sumf].
            rewrite ln_div; [|apply Rmult_lt_0_compat; lra|apply Rmult_lt_0_compat; lra].
            rewrite !ln_mult by lra. rewrite Nat.add_0_r, plus_INR. simpl.
            replace (alpha m + (INR n + 1)) with (alpha m + INR n + 1) by lra.
            rewrite Rplus_0_r. lra. }
          replace (Z.of_nat (S c) - 1)%Z with (Z.of_nat c) by lia. rewrite <- INR_IZR_INZ.
          rewrite !lg_ratio by (auto; lra).
          rewrite (sumf_ext (fun i => ln (alpha m + INR n + INR i)) (fun i => ln (alpha m + INR (n + i)))).
          - lra.
          - intros i _. rewrite plus_INR. f_equal. lra. }
        replace (Z.of_nat n + Z.of_nat (S c))%Z with (Z.of_nat (n + S c)) by lia.
        replace (Z.of_nat K + 1)%Z with (Z.of_nat (S K)) by lia.
        rewrite IH, Hsc. unfold nz. cbn [List.filter Nat.eqb negb length]. fold (nz cs).
        cbn [natsum fold_right]. fold (natsum cs).
        replace (K + S (nz cs))%nat with (S K + nz cs)%nat by lia.
        replace (n + (S c + natsum cs))%nat with (n + S c + natsum cs)%nat by lia.
        assert (HA : fA m (S K) = fA m K + ln (alpha m + disc m * INR K)) by reflexivity.
        lra.
  Qed.

  Lemma score_counts_closed m cs : py_ok m -> py_score_counts m (map Z.of_nat cs) = closed m cs.
  Proof.
    intro Hm. unfold py_score_counts. rewrite (loop_closed m cs Hm _ 0 0).
    cbn [nof NR NumR]. unfold closed, fA at 2, fC at 2. simpl. lra.
  Qed.

  Lemma rsum_perm l1 l2 : Permutation l1 l2 -> rsum l1 = rsum l2.
  Proof. induction 1; simpl; lra. Qed.
  Lemma nz_perm l1 l2 : Permutation l1 l2 -> nz l1 = nz l2.
  Proof.
    unfold nz. induction 1 as [|x l1 l2 H IH|x y l|l1 l2 l3 H1 IH1 H2 IH2]; cbn [List.filter].
    - reflexivity.
    - destruct (negb _); cbn [length]; congruence.
    - destruct (negb (y =? 0)%nat), (negb (x =? 0)%nat); reflexivity.
    - congruence.
  Qed.
  Lemma natsum_perm l1 l2 : Permutation l1 l2 -> natsum l1 = natsum l2.
  Proof. unfold natsum. induction 1; simpl; lia. Qed.

  Definition drop0 (l : list nat) := List.filter (fun c => negb (c =? 0)%nat) l.
  Lemma closed_drop0 m l : closed m l = closed m (drop0 l).
  Proof.
    unfold closed. assert (H : nz (drop0 l) = nz l /\ rsum (map (fB m) (drop0 l)) = rsum (map (fB m) l) /\ natsum (drop0 l) = natsum l).
    { unfold nz, drop0, natsum. induction l as [|[|c] l IH]; simpl in *.
      - auto. - destruct IH as (-> & -> & ->). replace (fB m 0) with 0 by reflexivity. split; [auto|split; [lra|auto]].
      - destruct IH as (-> & -> & ->). auto. }
    destruct H as (-> & -> & ->). reflexivity.
  Qed.

  Lemma all_nat l : Forall (fun c => 0 <= c)%Z l -> map Z.of_nat (map Z.to_nat l) = l.
  Proof. induction 1; simpl; [reflexivity|]. f_equal; [lia|auto]. Qed.

  Lemma filter_nat l : Forall (fun c => 0 <= c)%Z l ->
    drop0 (map Z.to_nat l) = map Z.to_nat (List.filter (fun c => negb (c =? 0)%Z) l).
  Proof.
    unfold drop0. induction 1 as [|c l Hc Hl IH]; cbn [map List.filter]; [reflexivity|].
    replace (Z.to_nat c =? 0)%nat with (c =? 0)%Z.
    - destruct (c =? 0)%Z; cbn [negb map]; congruence.
    - destruct (Z.eqb_spec c 0); destruct (Nat.eqb_spec (Z.to_nat c) 0); auto; lia.
  Qed.

  Lemma score_counts_invariant m l1 l2 : py_ok m ->
    Forall (fun c => 0 <= c)%Z l1 -> Forall (fun c => 0 <= c)%Z l2 ->
    Permutation (List.filter (fun c => negb (c =? 0)%Z) l1) (List.filter (fun c => negb (c =? 0)%Z) l2) ->
    py_score_counts m l1 = py_score_counts m l2.
  Proof.
    intros Hm H1 H2 HP. rewrite <- (all_nat l1 H1), <- (all_nat l2 H2), !score_counts_closed by auto.
    rewrite closed_drop0, (closed_drop0 m (map Z.to_nat l2)). rewrite !filter_nat by auto.
    apply (Permutation_map Z.to_nat) in HP. unfold closed.
    rewrite (nz_perm _ _ HP), (natsum_perm _ _ HP), (rsum_perm _ _ (Permutation_map (fB m) HP)). reflexivity.
  Qed.

  (** seating *)
  Definition sz (k : nat) (past : list nat) : list nat := map (count_occ PeanoNat.Nat.eq_dec past) (seq 0 k).

  Lemma sz_step k past g : (g < k)%nat -> exists pre post,
    sz k past = pre ++ count_occ PeanoNat.Nat.eq_dec past g :: post /\
    sz k (g :: past) = pre ++ S (count_occ PeanoNat.Nat.eq_dec past g) :: post.
  Proof.
    intro Hg. unfold sz.
    assert (E : seq 0 k = seq 0 g ++ g :: seq (S g) (k - S g)).
    { replace k with (g + S (k - S g))%nat at 1 by lia. rewrite seq_app. reflexivity. }
    rewrite E, !map_app. cbn [map]. do 2 eexists. split; [reflexivity|].
    rewrite count_occ_cons_eq by reflexivity. f_equal; [|f_equal].
    - apply map_ext_in. intros i Hi. apply in_seq in Hi. apply count_occ_cons_neq. lia.
    - apply map_ext_in. intros i Hi. apply in_seq in Hi. apply count_occ_cons_neq. lia.
  Qed.

  Lemma nz_app a b : nz (a ++ b) = (nz a + nz b)%nat.
  Proof. unfold nz. induction a as [|[|x] a IH]; simpl; auto. Qed.
  Lemma natsum_app a b : natsum (a ++ b) = (natsum a + natsum b)%nat.
  Proof. unfold natsum. induction a; simpl; lia. Qed.
  Lemma rsum_app a b : rsum (a ++ b) = rsum a + rsum b.
  Proof. induction a; simpl; lra. Qed.

  Lemma sz_stats k past : Forall (fun g => g < k)%nat past ->
    nz (sz k past) = length (nodup PeanoNat.Nat.eq_dec past) /\ natsum (sz k past) = length past.
  Proof.
    induction 1 as [|g past Hg Hp [IH1 IH2]].
    - unfold sz. simpl. split.
      + unfold nz. induction (seq 0 k); simpl; auto.
      + unfold natsum. induction (seq 0 k); simpl; auto.
    - destruct (sz_step k past g Hg) as (pre & post & E1 & E2). rewrite E1 in IH1, IH2. rewrite E2.
      rewrite nz_app in *. rewrite natsum_app in *.
      cbn [nodup length]. destruct (in_dec PeanoNat.Nat.eq_dec g past) as [Hi|Hi].
      + apply (count_occ_In PeanoNat.Nat.eq_dec) in Hi. split.
        * rewrite <- IH1. f_equal. unfold nz. cbn [List.filter].
          destruct (count_occ PeanoNat.Nat.eq_dec past g); [lia|]. reflexivity.
        * rewrite <- IH2. unfold natsum. simpl. lia.
      + apply (count_occ_not_In PeanoNat.Nat.eq_dec) in Hi. rewrite Hi in *. split.
        * cbn [length]. rewrite <- IH1. unfold nz. simpl. lia.
        * rewrite <- IH2. unfold natsum. simpl. lia.
  Qed.

  Lemma seat_step m k past g : py_ok m -> Forall (fun g => g < k)%nat past -> (g < k)%nat ->
    closed m (sz k (g :: past)) = closed m (sz k past) +
      py_score_add m (Z.of_nat (count_occ PeanoNat.Nat.eq_dec past g)) (Z.of_nat (length (nodup PeanoNat.Nat.eq_dec past)))
        (Z.of_nat (length past)) 1.
  Proof.
    intros Hm Hp Hg. destruct (sz_stats k past Hp) as [S1 S2].
    destruct (sz_stats k (g :: past) ltac:(constructor; assumption)) as [T1 T2].
    destruct (sz_step k past g Hg) as (pre & post & E1 & E2).
    unfold closed. rewrite S1, S2, T1, T2, E1, E2, !map_app, !rsum_app. cbn [map rsum length].
    pose proof Hm as [Ha [Hd0 Hd1]].
    unfold py_score_add. cbn [nof nlog nadd nsub nmul ndiv nneg NR NumR]. rewrite <- !INR_IZR_INZ.
    assert (HC : fC m (S (length past)) = fC m (length past) + ln (alpha m + INR (length past))) by reflexivity.
    rewrite HC. pose proof (pos_INR (length past)).
    cbn [nodup]. destruct (in_dec PeanoNat.Nat.eq_dec g past) as [Hi|Hi].
    - apply (count_occ_In PeanoNat.Nat.eq_dec) in Hi.
      destruct (count_occ PeanoNat.Nat.eq_dec past g) as [|c] eqn:Ec; [lia|].
      destruct (Z.eqb_spec (Z.of_nat (S c)) 0); [lia|].
      assert (HB : fB m (S (S c)) = fB m (S c) + ln (1 - disc m + INR c)).
      { unfold fB. cbn [Nat.sub]. rewrite Nat.sub_0_r. reflexivity. }
      rewrite HB. pose proof (pos_INR c). rewrite S_INR.
      replace (INR c + 1 - disc m) with (1 - disc m + INR c) by lra.
      rewrite ln_div by lra. rewrite (Rplus_comm (INR (length past)) (alpha m)). lra.
    - apply (count_occ_not_In PeanoNat.Nat.eq_dec) in Hi. rewrite Hi. simpl (Z.of_nat 0 =? 0)%Z. cbn iota.
      cbn [length].
      assert (HA : fA m (S (length (nodup PeanoNat.Nat.eq_dec past))) = fA m (length (nodup PeanoNat.Nat.eq_dec past))
         + ln (alpha m + disc m * INR (length (nodup PeanoNat.Nat.eq_dec past)))) by reflexivity.
      rewrite HA. replace (fB m 1) with 0 by reflexivity. replace (fB m 0) with 0 by reflexivity.
      rewrite Rmult_1_r. rewrite ln_div; [|apply term_pos; auto|lra].
      rewrite (Rplus_comm (INR (length past)) (alpha m)). lra.
  Qed.

  Lemma seating m k : py_ok m -> forall rest past, Forall (fun g => g < k)%nat past -> Forall (fun g => g < k)%nat rest ->
    seating_score (fun c K n => py_score_add m c K n 1) past rest =
      closed m (sz k (rev rest ++ past)) - closed m (sz k past).
  Proof.
    intros Hm. induction rest as [|g rest IH]; intros past Hp Hr; cbn [seating_score rev app].
    - lra.
    - apply Forall_cons in Hr. destruct Hr as [Hg Hr].
      rewrite (IH (g :: past)) by auto. rewrite <- app_assoc. cbn [app].
      rewrite seat_step by auto. lra.
  Qed.

  Lemma count_occ_rev (l : list nat) x : count_occ PeanoNat.Nat.eq_dec (rev l) x = count_occ PeanoNat.Nat.eq_dec l x.
  Proof. induction l as [|a l IH]; [reflexivity|]. cbn [rev]. rewrite count_occ_app. cbn [count_occ].
         rewrite IH. destruct (PeanoNat.Nat.eq_dec a x); lia. Qed.

  Lemma score_counts_is_seating m k rest : py_ok m -> Forall (fun g => g < k)%nat rest ->
    py_score_counts m (group_sizes k rest) =
    seating_score (fun c K n => py_score_add m c K n 1) [] rest.
  Proof.
    intros Hm Hr. rewrite (seating m k) by auto. unfold group_sizes.
    replace (map _ (seq 0 k)) with (map Z.of_nat (sz k (rev rest ++ []))).
    - rewrite score_counts_closed by auto.
      replace (closed m (sz k [])) with 0; [lra|]. unfold closed.
      destruct (sz_stats k []) as [-> ->]; [constructor|].
      replace (rsum _) with 0; [unfold fA, fC; simpl; lra|].
      unfold sz. simpl. induction (seq 0 k); simpl; [reflexivity|]. unfold fB at 1. simpl. lra.
    - unfold sz. rewrite map_map. apply map_ext. intro g. rewrite app_nil_r, count_occ_rev. reflexivity.
  Qed.
End R.

Lemma score_add_is_rule lg m c K n E : py_ok m -> (0 <= c)%Z -> (0 <= n)%Z -> (0 <= K)%Z -> (0 < E)%Z ->
  exp (py_score_add (N := NumR lg) m c K n E) = py_rule (alpha m) (disc m) (IZR n) (IZR K) (IZR E) (IZR c).
Proof.
  intros Hm Hc Hn HK HE. destruct (exp_score lg m c K n E Hm Hc Hn HK HE) as [H _]. unfold NR in H.
  rewrite H. unfold wt, py_rule. destruct Hm as [Ha _].
  pose proof (IZR_nn _ Hn). pose proof (IZR_ge1 _ HE).
  destruct (Z.eqb_spec c 0) as [->|Hne]; destruct (Req_EM_T _ 0) as [E0|E0].
  - field. split; lra.
  - exfalso; apply E0; reflexivity.
  - exfalso. apply Hne. apply eq_IZR. exact E0.
  - reflexivity.
Qed.
