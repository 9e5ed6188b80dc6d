(** Clustering scores and scores_to_probs: C++ against Python. *)
From Coq Require Import Reals Lra Lia.
From Verif.model Require Import Base Num NumR VectorMath Random Sampler Dbg.
From Verif.spec Require Import PartitionSpec VectorSpec RandomSpec.
From Verif.proof Require Import BaseProof VectorProof RandomProof FlavorProof FlavorDD.
Local Open Scope R_scope.

Section S.
  Variable lg : R -> R.
  #[local] Hint Extern 0 (Num R) => exact (NumR lg) : typeclass_instances.

  Lemma div_exact : forall N n, (0 < n)%Z -> (n | N)%Z -> IZR (N / n) = IZR N / IZR n.
  Proof.
    intros N n Hn [q ->]. rewrite Z.div_mul by lia. rewrite mult_IZR. field. apply not_0_IZR. lia.
  Qed.
  Lemma le_pp : forall dl N n (s : R), (0 < n < N)%Z -> (n | N)%Z -> le_postpred dl N n = Ok s -> py_le_postpred N n = Ok s.
  Proof.
    intros dl N n s Hn Hd H. unfold le_postpred, py_le_postpred in *.
    rewrite (proj2 (Z.ltb_lt 0 n)), (proj2 (Z.ltb_lt n N)) in * by lia. cbn [dassert obind] in *.
    rewrite !dassert_at_true in H by reflexivity. cbn [obind] in H. rewrite <- H. f_equal. cbn. now rewrite div_exact by (lia || assumption).
  Qed.
  Lemma le_sa : forall dl N gs ne n e (s : R), (0 <= n < N)%Z -> (0 < e)%Z ->
    (gs <> 0 \/ n + 1 = N \/ (n + 1 | N))%Z ->
    le_score_add dl N gs ne n e = Ok s -> py_le_score_add N gs n e = Ok s.
  Proof.
    intros dl N gs ne n e s Hn He Hd H. unfold le_score_add, py_le_score_add in *.
    rewrite (proj2 (Z.ltb_lt n N)), (proj2 (Z.ltb_lt 0 e)) in * by lia. cbn [dassert obind] in *.
    rewrite !dassert_at_true in H by reflexivity. cbn [obind] in H.
    destruct (dassert_at dl 1 (ne <=? n)%Z); try discriminate. cbn [obind] in H.
    destruct (Z.eqb_spec gs 0) as [->|Hg].
    - destruct (Z.ltb_spec (n + 1) N) as [Hl|Hl]; [|exact H].
      destruct (le_postpred dl N (n + 1)) as [c| |] eqn:E; try discriminate.
      assert (Hd' : (n + 1 | N)%Z) by (destruct Hd as [X|[X|X]]; [now elim X|lia|exact X]).
      rewrite (le_pp dl N (n + 1) c) by (assumption || lia). exact H.
    - cbn in H |- *. replace (1 / 1) with 1 by lra. exact H.
  Qed.
  Lemma le_sr : forall dl N gs ne n e (s : R), (0 < n < N)%Z -> (0 < e)%Z ->
    (gs <> 1 \/ n + 1 = N \/ (n + 1 | N))%Z ->
    le_score_remove dl N gs ne n e = Ok s -> py_le_score_remove N gs n e = Ok s.
  Proof.
    intros dl N gs ne n e s Hn He Hd H. unfold le_score_remove, py_le_score_remove in *.
    rewrite (proj2 (Z.ltb_lt 0 n)) in * by lia. cbn [dassert obind] in *. rewrite dassert_at_true in H by reflexivity. cbn [obind] in H.
    destruct (le_score_add dl N (gs - 1) ne n e) as [t| |] eqn:E; try discriminate.
    rewrite (le_sa dl N (gs - 1) ne n e t); [exact H|lia|lia| |exact E].
    destruct Hd as [|Hd]; [left; lia|right; exact Hd].
  Qed.
  Lemma le_loop : forall cs (s : R) n s' n', le_counts_loop s n cs = Ok (s', n') ->
    s' = fold_left (fun s c => if (1 <? c)%Z then (s + nof c * nlog (nof c))%num else s) cs s /\ n' = (n + py_zsum cs)%Z.
  Proof.
    induction cs as [|c cs IH]; intros s n s' n' H; cbn [le_counts_loop fold_left] in *.
    - injection H as <- <-. split; [reflexivity|unfold py_zsum; cbn; lia].
    - destruct (i32 (n + c)) as [m| |] eqn:E; try discriminate. apply i32_ok in E. cbn [obind] in H.
      destruct (IH _ _ _ _ H) as [-> ->]. split; [reflexivity|]. rewrite py_zsum_cons. lia.
  Qed.
  Lemma le_sc : forall dl (table : list R) N cs (s : R), let n := py_zsum cs in
    cs <> [] -> (Z.of_nat (length cs) <= 2 ^ 64)%Z -> (n = N \/ 0 < n /\ (n | N))%Z ->
    le_score_counts dl table N cs = Ok s -> py_le_score_counts table N cs = Ok s.
  Proof.
    intros dl table N cs s n Hc Hl Hd H. unfold le_score_counts, py_le_score_counts in *. fold n.
    destruct (le_counts_loop _ 0 cs) as [[sc m]| |] eqn:E; try discriminate. cbn [obind] in H.
    destruct (le_loop _ _ _ _ _ E) as [-> Hm]. rewrite Z.add_0_l in Hm. fold n in Hm. subst m. clear E.
    set (f := fold_left _ cs _) in *.
    destruct (Z.leb_spec n N) as [Hle|Hle]; cbn [dassert obind] in *; [|discriminate].
    assert (K : forall x, (let* score := (if (n =? N)%Z then Ok f else
         let* log_factor := le_postpred dl N n in
         Ok ((f + log_factor * nof ((Z.of_nat (length cs) - 1) mod 2 ^ 64)) + le_dataprob N n)%num) in
         let* lp := le_log_partition table n in Ok (score - lp)%num) = Ok x ->
       (let* score := (if negb (n =? N)%Z then
         let* log_factor := py_le_postpred N n in
         Ok ((f + log_factor * nof (Z.of_nat (length cs) - 1)) + py_le_dataprob N n)%num else Ok f) in
         let* lp := py_le_log_partition table n in Ok (score - lp)%num) = Ok x).
    { assert (KP : forall y, le_log_partition table n = Ok y -> py_le_log_partition table n = Ok y).
      { intros y Hy. unfold le_log_partition, py_le_log_partition in *. destruct (n <? 48)%Z.
        - destruct (Z.ltb_spec n 0); [discriminate|]. unfold vget in Hy.
          destruct (nth_error table (Z.to_nat n)) eqn:E; [|discriminate]. injection Hy as ->.
          rewrite <- (Z2Nat.id n) by lia. now apply py_get_in.
        - cbn in Hy |- *. replace (1 / 1) with 1 by lra. exact Hy. }
      intros x Hx. destruct (Z.eqb_spec n N) as [->|Hne]; cbn [negb obind] in *.
      - destruct (le_log_partition table N) as [y| |] eqn:E; try discriminate. now rewrite (KP y eq_refl).
      - destruct Hd as [|[Hp Hd]]; [contradiction|].
        destruct (le_postpred dl N n) as [c| |] eqn:E; try discriminate.
        rewrite (le_pp dl N n c) by (assumption || lia). cbn [obind] in *.
        destruct (le_log_partition table n) as [y| |] eqn:E2; try discriminate. rewrite (KP y eq_refl). cbn [obind] in *.
        rewrite Z.mod_small in Hx by (destruct cs; [contradiction|cbn [length] in *; lia]). exact Hx. }
    exact (K s H).
  Qed.

  Lemma py_probs : forall l : list R, l <> [] -> py_scores_to_probs l = scores_to_probs l.
  Proof.
    intros [|x t] Hl; [contradiction|]. etransitivity; [|symmetry; exact (scores_to_probs_ok lg (x :: t) Hl)].
    unfold py_scores_to_probs. cbn [nexp nsub ndiv NumR].
    set (m := fold_left _ t x). clearbody m. f_equal. rewrite map_map. apply map_ext. intro s.
    rewrite (exp_norm (x :: t) s m Hl). unfold Rdiv. f_equal. f_equal. rewrite <- rsum_exp_shift.
    unfold py_fsum. cbn [nadd nof NumR]. generalize (map (fun s0 => exp (s0 - m)) (x :: t)). intro k.
    assert (E : forall a, fold_left Rplus k a = a + rsum k).
    { induction k as [|y k IH]; intro a; cbn [fold_left rsum]; [lra|]. rewrite IH. lra. }
    rewrite E. lra.
  Qed.
End S.
