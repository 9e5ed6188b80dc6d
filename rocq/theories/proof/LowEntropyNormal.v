(** The log-partition table of LowEntropy against the exact sums. *)
From Coq Require Import List ZArith Reals Lra Lia Permutation.
From Verif.model Require Import Base Num NumR Sampler LowEntropyTable.
From Verif.spec Require Import PartitionSpec LabelSpec LawSpec LowEntropySpec.
From Verif.proof Require Import BaseProof SamplerProof PYLaw LnBounds LowEntropySum.
Import ListNotations.
Local Open Scope Z_scope.

Lemma Rabs_def2' x e : (Rabs x <= e -> - e <= x <= e)%R.
Proof. unfold Rabs. destruct (Rcase_abs x); lra. Qed.

(** ** Logarithms of integers from telescoping certificates *)
Definition terms (k : Z) : nat := if k <? 50 then 20 else 8.
Fixpoint c_num (c : list (Z * Z)) : Z := match c with [] => 1 | (k, m) :: t => (k + 1) ^ m * c_num t end.
Fixpoint c_den (c : list (Z * Z)) : Z := match c with [] => 1 | (k, m) :: t => k ^ m * c_den t end.
Fixpoint c_lo (c : list (Z * Z)) : Z := match c with [] => 0 | (k, m) :: t => m * step_lo k (terms k) + c_lo t end.
Fixpoint c_hi (c : list (Z * Z)) : Z := match c with [] => 0 | (k, m) :: t => m * step_hi k (terms k) + c_hi t end.
Definition c_ok (c : list (Z * Z)) : bool := forallb (fun p => (1 <=? fst p) && (0 <=? snd p))%bool c.

Lemma ln_zpow k m : 1 <= k -> 0 <= m -> (ln (IZR (k ^ m)) = IZR m * ln (IZR k))%R.
Proof.
  intros Hk Hm. rewrite <- (Z2Nat.id m) by lia. generalize (Z.to_nat m). intro n. rewrite <- pow_IZR, <- INR_IZR_INZ.
  apply ln_pow. apply IZR_lt. lia.
Qed.
Lemma cert_sound c : c_ok c = true -> 1 <= c_num c /\ 1 <= c_den c /\
  (IZR (c_lo c) <= IZR scale * (ln (IZR (c_num c)) - ln (IZR (c_den c))) <= IZR (c_hi c))%R.
Proof.
  induction c as [|[k m] c IH]; cbn [c_ok forallb fst snd c_num c_den c_lo c_hi]; intro H.
  - rewrite ln_1. repeat split; try lia; lra.
  - apply andb_prop in H as [H1 H2]. apply andb_prop in H1 as [Hk Hm]. apply Z.leb_le in Hk, Hm.
    destruct (IH H2) as (A & B & C & D).
    assert (P : 1 <= (k + 1) ^ m) by (pose proof (Z.pow_pos_nonneg (k + 1) m); lia).
    assert (Q : 1 <= k ^ m) by (pose proof (Z.pow_pos_nonneg k m); lia).
    split; [nia|]. split; [nia|]. split.
    all: destruct (step_ok k (terms k) Hk ltac:(unfold terms; destruct (k <? 50); lia)) as [S1 S2].
    all: rewrite !mult_IZR, !ln_mult by (apply IZR_lt; lia); rewrite !ln_zpow by lia.
    all: rewrite (plus_IZR (_ * _)), (mult_IZR m).
    all: assert (M : (0 <= IZR m)%R) by (apply IZR_le; lia).
    + apply (Rmult_le_compat_l _ _ _ M) in S1. lra.
    + apply (Rmult_le_compat_l _ _ _ M) in S2. lra.
Qed.

(** |ln z - d / 10^8| <= 10^-8 *)
Definition slack : Z := 10 ^ 11.
Definition check (d : Z) (c : list (Z * Z)) (z : Z) : bool :=
  (c_ok c && (1 <=? z) && (c_num c <=? z * c_den c) && (z * c_den c * slack <=? c_num c * (slack + 1)) &&
   (((d - 1) * 10 ^ 12 <=? c_lo c) && (c_hi c + 10 ^ 9 <=? (d + 1) * 10 ^ 12)))%bool.
Lemma check_sound d c z : check d c z = true -> 1 <= z /\ (Rabs (ln (IZR z) - IZR d / 100000000) <= 1 / 100000000)%R.
Proof.
  unfold check. intro H. apply andb_prop in H as [H H5]. apply andb_prop in H as [H H4]. apply andb_prop in H as [H H3].
  apply andb_prop in H as [H1 H2]. apply andb_prop in H5 as [H5 H6].
  apply Z.leb_le in H2, H3, H4, H5, H6. destruct (cert_sound c H1) as (A & B & C & D). split; [exact H2|].
  assert (Pz : (0 < IZR z)%R) by (apply IZR_lt; lia). assert (Pn : (0 < IZR (c_num c))%R) by (apply IZR_lt; lia).
  assert (Pd : (0 < IZR (c_den c))%R) by (apply IZR_lt; lia).
  apply IZR_le in H3, H4, H5, H6. rewrite !mult_IZR in H3. rewrite !mult_IZR, plus_IZR in H4.
  rewrite mult_IZR, minus_IZR in H5. rewrite mult_IZR, !plus_IZR in H6.
  assert (L1 : (ln (IZR (c_num c)) <= ln (IZR z) + ln (IZR (c_den c)))%R).
  { rewrite <- ln_mult by lra. destruct H3 as [H3|H3]; [left; now apply ln_increasing|right; now f_equal]. }
  assert (L2 : (ln (IZR z) + ln (IZR (c_den c)) <= ln (IZR (c_num c)) + / IZR slack)%R).
  { assert (Ps : (0 < IZR slack)%R) by (apply IZR_lt; reflexivity).
    apply Rle_trans with (ln (IZR (c_num c) * (1 + / IZR slack)))%R.
    - rewrite <- ln_mult by lra. assert (K : (IZR z * IZR (c_den c) <= IZR (c_num c) * (1 + / IZR slack))%R).
      { apply (Rmult_le_reg_r (IZR slack) _ _ Ps). replace (IZR (c_num c) * (1 + / IZR slack) * IZR slack)%R with (IZR (c_num c) * (IZR slack + 1))%R by (field; lra). exact H4. }
      assert (0 < IZR z * IZR (c_den c))%R by (now apply Rmult_lt_0_compat).
      destruct K as [K|K]; [left; now apply ln_increasing|right; now f_equal].
    - assert (0 < / IZR slack)%R by (now apply Rinv_0_lt_compat). rewrite ln_mult by lra.
      pose proof (exp_ineq1 (/ IZR slack) ltac:(lra)) as E. apply Rplus_le_compat_l. rewrite <- (ln_exp (/ IZR slack)) at 2.
      left. apply ln_increasing; lra. }
  unfold scale, slack in *. change (10 ^ 20) with 100000000000000000000 in *. change (10 ^ 11) with 100000000000 in *.
  change (10 ^ 12) with 1000000000000 in *. change (10 ^ 9) with 1000000000 in *. apply Rabs_le. lra.
Qed.

Definition certs : list (list (Z * Z)) :=
  [[];
   [];
   [(1, 2); (4, 1)];
   [(1, 5); (4, 1)];
   [(1, 8); (2, 1); (8, 1); (87, 1); (12672, 1)];
   [(1, 12); (3, 1); (10, 1); (211, 1); (97469, 1); (10344677376, 1)];
   [(1, 16); (2, 1); (42, 1); (8098, 1); (407560192, 1)];
   [(1, 20); (2, 1); (5, 1); (25, 1); (882, 1); (10982303, 1)];
   [(1, 25); (4, 1); (22, 1); (500, 1); (304912, 1)];
   [(1, 30); (33, 1); (5287, 1); (56013207, 1)];
   [(1, 34); (2, 1); (5, 1); (528, 1); (22226360, 1)];
   [(1, 39); (2, 1); (7, 1); (78, 1); (11075, 1)];
   [(1, 44); (2, 1); (5, 1); (75, 1); (12948, 1); (240566880, 1)];
   [(1, 50); (27, 1); (1117, 1); (1273467, 1)];
   [(1, 55); (4, 1); (57, 1); (94057, 1); (14886864947, 1)];
   [(1, 60); (2, 1); (9, 1); (556, 1); (431735, 1)];
   [(1, 66); (6, 1); (588, 1); (1076567, 1)];
   [(1, 71); (2, 1); (7, 1); (74, 1); (6561, 1); (54717909, 1)];
   [(1, 77); (3, 1); (39, 1); (156448, 1); (39110155100, 1)];
   [(1, 83); (8, 1); (106, 1); (42408, 1); (19481206591, 1)];
   [(1, 88); (2, 1); (4, 1); (18, 1); (353, 1); (339016, 1)];
   [(1, 94); (2, 1); (5, 1); (88, 1); (18890, 1); (2981091353, 1)];
   [(1, 100); (2, 1); (7, 1); (50, 1); (5949, 1); (734130313, 1)];
   [(1, 106); (2, 1); (6, 1); (302, 1); (275010, 1)];
   [(1, 112); (2, 1); (5, 1); (47, 1); (3519, 1); (33107048, 1)];
   [(1, 119); (373, 1); (154315, 1)];
   [(1, 125); (8, 1); (95, 1); (20823, 1); (4158984888, 1)];
   [(1, 131); (3, 1); (272, 1); (162903, 1); (63546353644, 1)];
   [(1, 137); (2, 1); (12, 1); (201, 1); (74280, 1); (6248669564, 1)];
   [(1, 144); (32, 1); (2033, 1); (4970697, 1)];
   [(1, 150); (3, 1); (90, 1); (13192, 1); (300957249, 1)];
   [(1, 156); (2, 1); (5, 1); (90, 1); (36380, 1); (1605505434, 1)];
   [(1, 163); (4, 1); (71, 1); (8271, 1); (338183443, 1)];
   [(1, 169); (2, 1); (5, 1); (87, 1); (13111, 1); (332678831, 1)];
   [(1, 176); (3, 1); (99, 1); (20950, 1); (1001359881, 1)];
   [(1, 183); (40, 1); (3209, 1); (18189127, 1)];
   [(1, 189); (2, 1); (15, 1); (303, 1); (484095, 1)];
   [(1, 196); (4, 1); (31, 1); (1395, 1); (15371583, 1)];
   [(1, 203); (16, 1); (268, 1); (410304, 1)];
   [(1, 209); (2, 1); (5, 1); (238, 1); (113757, 1); (55185961072, 1)];
   [(1, 216); (2, 1); (22, 1); (604, 1); (539192, 1)];
   [(1, 223); (3, 1); (21, 1); (699, 1); (956835, 1)];
   [(1, 230); (4, 1); (49, 1); (4322, 1); (19538935, 1)];
   [(1, 237); (6, 1); (48, 1); (13200, 1); (280051313, 1)];
   [(1, 244); (8, 1); (90, 1); (14724, 1); (217436097, 1)];
   [(1, 251); (10, 1); (101, 1); (14620, 1); (1186816213, 1)];
   [(1, 258); (10, 1); (124, 1); (237676, 1); (66877275024, 1)];
   [(1, 265); (8, 1); (200, 1); (111736, 1); (28731939247, 1)]].

Fixpoint check_all (ds : list Z) (cs : list (list (Z * Z))) (zs : list Z) : bool :=
  match ds, cs, zs with
  | [], [], [] => true
  | d :: ds', c :: cs', z :: zs' => (check d c z && check_all ds' cs' zs')%bool
  | _, _, _ => false
  end.
Lemma check_all_nth : forall ds cs zs, check_all ds cs zs = true -> forall i d, nth_error ds i = Some d ->
  exists z, nth_error zs i = Some z /\ 1 <= z /\ (Rabs (ln (IZR z) - IZR d / 100000000) <= 1 / 100000000)%R.
Proof.
  induction ds as [|d ds IH]; intros [|c cs] [|z zs] H i e Hi; try discriminate H; [destruct i; discriminate Hi|].
  cbn [check_all] in H. apply andb_prop in H as [H1 H2]. destruct i as [|i]; cbn [nth_error] in *.
  - injection Hi as <-. exists z. split; [reflexivity|]. now apply (check_sound d c).
  - exact (IH cs zs H2 i e Hi).
Qed.
Lemma down_rev n : forall i, (i <= n)%nat -> nth_error (rev (down n)) i = Some (W i []).
Proof.
  induction n as [|n IH]; intros i Hi.
  - assert (i = 0)%nat as -> by lia. reflexivity.
  - change (down (S n)) with (W (S n) [] :: down n). cbn [rev].
    assert (L : length (rev (down n)) = S n) by (rewrite rev_length; apply down_length).
    destruct (Nat.eq_dec i (S n)) as [->|Hne].
    + rewrite nth_error_app2 by lia. now rewrite L, Nat.sub_diag.
    + rewrite nth_error_app1 by lia. apply IH. lia.
Qed.
Lemma checked : check_all le_digits certs (rev (snd (tab (powers 47) 47))) = true.
Proof. vm_compute. reflexivity. Qed.
Lemma table_total n d : nth_error le_digits n = Some d ->
  1 <= W n [] /\ (Rabs (ln (IZR (W n [])) - IZR d / 100000000) <= 1 / 100000000)%R.
Proof.
  intro H. destruct (check_all_nth _ _ _ checked n d H) as (z & Hz & K).
  assert (Hn : (n < 48)%nat) by (apply (proj1 (nth_error_Some le_digits n)); rewrite H; discriminate).
  rewrite tab_ok in Hz by lia. cbn [snd] in Hz. rewrite down_rev in Hz by lia. injection Hz as <-. exact K.
Qed.
Lemma digits_range : forallb (fun d => (0 <=? d) && (d <=? 18380678238))%bool le_digits = true.
Proof. reflexivity. Qed.

(** ** score_counts *)
Local Open Scope R_scope.
Lemma zweight_pos cs : List.Forall (fun c => 1 <= c)%Z cs -> (1 <= zweight cs)%Z.
Proof.
  induction 1 as [|c cs Hc _ IH]; cbn [zweight]; [lia|]. assert (0 < c ^ c)%Z by (apply Z.pow_pos_nonneg; lia). nia.
Qed.
Lemma weight_z cs : low_entropy_weight cs = IZR (zweight cs).
Proof. induction cs as [|c cs IH]; cbn [low_entropy_weight zweight]; [reflexivity|]. now rewrite IH, mult_IZR. Qed.
Lemma counts_loop lg cs : List.Forall (fun c => 1 <= c)%Z cs -> forall s n, (0 <= n)%Z -> (n + zsum cs <= 2147483647)%Z ->
  le_counts_loop (N := NumR lg) s n cs = Ok (s + ln (IZR (zweight cs)), (n + zsum cs)%Z).
Proof.
  induction 1 as [|c cs Hc Hcs IH]; intros s n Hn Hs; cbn [le_counts_loop zweight zsum] in *.
  - rewrite ln_1, Rplus_0_r, Z.add_0_r. reflexivity.
  - assert (0 <= zsum cs)%Z by (clear -Hcs; induction Hcs; cbn [zsum]; lia).
    rewrite i32_ok by (unfold i32_min, i32_max; lia).
    cbn [obind]. rewrite IH by lia. f_equal. f_equal; [|lia].
    pose proof (zweight_pos cs Hcs). assert (0 < c ^ c)%Z by (apply Z.pow_pos_nonneg; lia).
    rewrite mult_IZR, ln_mult by (apply IZR_lt; lia). rewrite ln_zpow by lia.
    destruct (Z.ltb_spec 1 c).
    + cbn [NumR nadd nmul nlog nof]. lra.
    + assert (c = 1)%Z as -> by lia. rewrite ln_1. lra.
Qed.
Lemma sizes_pos a : labels_from 0 a -> List.Forall (fun c => 1 <= c)%Z (block_sizes a).
Proof.
  intro H. apply List.Forall_forall. intros c Hc. unfold block_sizes, label_sizes in Hc. apply in_map_iff in Hc as (g & <- & Hg).
  apply in_seq in Hg. pose proof (occ_used a 0 (Z.of_nat g) ltac:(lia)). lia.
Qed.
Lemma sizes_sum a : labels_from 0 a -> zsum (block_sizes a) = Z.of_nat (length a).
Proof.
  intro H. rewrite <- (occ_total a H). unfold block_sizes. generalize (label_sizes (next_label 0 a) a). clear.
  induction l as [|x l IH]; [reflexivity|]. cbn [zsum]. rewrite IH. reflexivity.
Qed.
Lemma score_ok lg dl table n a : (Z.of_nat n <= 2147483647)%Z -> length a = n -> labels_from 0 a -> forall lp,
  le_log_partition (N := NumR lg) table (Z.of_nat n) = Ok lp ->
  le_score_counts (N := NumR lg) dl table (Z.of_nat n) (block_sizes a) = Ok (ln (low_entropy_weight (block_sizes a)) - lp).
Proof.
  intros Hn Hl HL lp Hlp. unfold le_score_counts.
  rewrite (counts_loop lg _ (sizes_pos a HL)) by (rewrite ?sizes_sum by auto; lia).
  cbn [obind]. rewrite sizes_sum by auto. rewrite Hl, Z.add_0_l, Z.leb_refl, Z.eqb_refl. cbn [dassert obind].
  rewrite Hlp. cbn [obind]. rewrite weight_z. cbn [NumR nof nsub]. rewrite Rplus_0_l. reflexivity.
Qed.
Lemma total_weight L n : enumerates L n -> rsum (map (fun a => low_entropy_weight (block_sizes a)) L) = IZR (W n []).
Proof.
  intros [Hn HL]. rewrite <- (Nat.add_0_r n) at 1. rewrite <- total_labels.
  rewrite (rsum_perm' _ (map (fun a => low_entropy_weight (block_sizes a)) (all_labels n))).
  - generalize (all_labels n). induction l as [|a l IH]; cbn [map rsum zsum]; [reflexivity|]. rewrite IH, plus_IZR, weight_z. reflexivity.
  - apply Permutation_map. apply NoDup_Permutation; [exact Hn|apply all_labels_nodup|]. intro a. rewrite HL, all_labels_in. reflexivity.
Qed.
Lemma weight_pos a : labels_from 0 a -> 0 < low_entropy_weight (block_sizes a).
Proof. intro H. rewrite weight_z. pose proof (zweight_pos _ (sizes_pos a H)). apply IZR_lt. lia. Qed.
Lemma total_exp L lp n : enumerates L n -> rsum (map (fun a => exp (ln (low_entropy_weight (block_sizes a)) - lp)) L) = IZR (W n []) / exp lp.
Proof.
  intro HL. rewrite <- (total_weight L n HL). unfold Rdiv. rewrite Rmult_comm, <- rsum_scal. f_equal. apply map_ext_in.
  intros a Ha. apply HL in Ha as [_ Ha]. unfold Rminus. rewrite exp_plus, exp_Ropp, exp_ln by (now apply weight_pos). lra.
Qed.

Lemma table_near digits table n d : table_of digits table -> nth_error digits n = Some d ->
  exists x, nth_error table n = Some x /\ Rabs (x - IZR d / 100000000) <= IZR d / 100000000 / 2 ^ 24.
Proof.
  intro H. revert n. induction H as [|e x ds xs H0 _ IH]; intros [|n] E; try discriminate; cbn [nth_error] in *.
  - injection E as <-. eauto.
  - now apply IH.
Qed.
Lemma table_log_partition lg table n : table_of le_digits table -> (n < 48)%nat ->
  exists lp, le_log_partition (N := NumR lg) table (Z.of_nat n) = Ok lp /\ (1 <= W n [])%Z /\
    Rabs (lp - ln (IZR (W n []))) <= 15 / 1000000.
Proof.
  intros HT Hn. destruct (nth_error le_digits n) as [d|] eqn:E.
  2:{ apply nth_error_None in E. change (length le_digits) with 48%nat in E. lia. }
  destruct (table_near _ _ n d HT E) as (x & Hx & B). destruct (table_total n d E) as [Hw D].
  exists x. split; [|split; [exact Hw|]].
  - unfold le_log_partition. replace (Z.of_nat n <? 48)%Z with true by (symmetry; apply Z.ltb_lt; lia).
    replace (Z.of_nat n <? 0)%Z with false by (symmetry; apply Z.ltb_ge; lia). rewrite Nat2Z.id. unfold vget. now rewrite Hx.
  - assert (R : (0 <= d <= 18380678238)%Z).
    { apply nth_error_In in E. pose proof (proj1 (forallb_forall _ _) digits_range d E) as K. apply andb_prop in K as [K1 K2].
      apply Z.leb_le in K1, K2. lia. }
    destruct R as [R1 R2]. apply IZR_le in R1, R2. apply Rabs_def2' in B. apply Rabs_def2' in D.
    change (2 ^ 24) with (2 ^ 24)%R in B. assert (P24 : (2 ^ 24 = 16777216)%R) by ring. rewrite P24 in B. apply Rabs_le. lra.
Qed.
Lemma exp_near x e : Rabs x <= e -> e <= 15 / 1000000 -> Rabs (exp x - 1) <= 2 / 100000.
Proof.
  intros H He. apply Rabs_def2' in H. apply Rabs_le. split.
  - pose proof (exp_ineq1_le x). lra.
  - pose proof (exp_ineq1_le (- x)) as K. rewrite exp_Ropp in K. pose proof (exp_pos x) as P.
    apply (Rmult_le_compat_l (exp x)) in K; [|lra]. rewrite Rinv_r in K by lra.
    assert (exp x * (1 - 15 / 1000000) <= 1); [|lra]. apply Rle_trans with (2 := K). apply Rmult_le_compat_l; lra.
Qed.
Theorem low_entropy_law lg dl table n L : table_of le_digits table -> (n < 48)%nat -> enumerates L n ->
  exists f, (forall a, In a L -> le_score_counts (N := NumR lg) dl table (Z.of_nat n) (block_sizes a) = Ok (f a) /\
      Rabs (f a - ln (low_entropy_weight (block_sizes a) / rsum (map (fun b => low_entropy_weight (block_sizes b)) L))) <= 15 / 1000000) /\
    Rabs (rsum (map (fun a => exp (f a)) L) - 1) <= 2 / 100000.
Proof.
  intros HT Hn HL. destruct (table_log_partition lg table n HT Hn) as (lp & Hlp & Hw & B).
  assert (Pw : 0 < IZR (W n [])) by (apply IZR_lt; lia).
  exists (fun a => ln (low_entropy_weight (block_sizes a)) - lp). split.
  - intros a Ha. apply HL in Ha as [Hl Ha]. split; [now apply score_ok; auto; lia|]. rewrite (total_weight L n HL).
    unfold Rdiv at 1. rewrite ln_mult by (auto using weight_pos, Rinv_0_lt_compat). rewrite ln_Rinv by lra.
    replace (ln (low_entropy_weight (block_sizes a)) - lp - (ln (low_entropy_weight (block_sizes a)) + - ln (IZR (W n []))))
      with (- (lp - ln (IZR (W n [])))) by ring. now rewrite Rabs_Ropp.
  - rewrite (total_exp L lp n HL). rewrite <- (exp_ln _ Pw). unfold Rdiv. rewrite <- exp_Ropp, <- exp_plus.
    apply (exp_near _ (15 / 1000000)); [|lra]. rewrite <- Rabs_Ropp. replace (- (ln (IZR (W n [])) + - lp)) with (lp - ln (IZR (W n []))) by ring. exact B.
Qed.
