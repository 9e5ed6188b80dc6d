(** Round trips through protobuf messages. *)
From Coq Require Import Permutation Znumtheory Reals Lra.
From Verif.spec Require Import GroupSpec GaussSpec NiwSpec.
From Verif.model Require Import Base Num NumR VectorMath Component BB GP BNB NICH DD Sparse DPD NIW PitmanYor Proto.
From Verif.proof Require Import BaseProof VectorProof GroupProof DDProof NIWProof.

(** ** Integer conversions *)
Lemma as_int_mod z : as_int (as_size z) = as_int z.
Proof.
  unfold as_int, as_size. rewrite <- (Zmod_div_mod 4294967296 18446744073709551616 z); [reflexivity|lia|lia|].
  exists 4294967296%Z. reflexivity.
Qed.
Lemma as_int_id z : (i32_min <= z <= i32_max)%Z -> as_int z = z.
Proof.
  unfold i32_min, i32_max. intro H. unfold as_int, i32_max. destruct (Z.le_gt_cases 0 z).
  - rewrite Z.mod_small by lia. rewrite (proj2 (Z.leb_le z 2147483647)) by lia. reflexivity.
  - rewrite <- (Z_mod_plus_full z 1 4294967296), Z.mod_small by lia.
    rewrite (proj2 (Z.leb_gt (z + 1 * 4294967296) 2147483647)) by lia. lia.
Qed.
Lemma int_trip z : (i32_min <= z <= i32_max)%Z -> as_int (as_size z) = z.
Proof. intro H. rewrite as_int_mod. now apply as_int_id. Qed.
Lemma uint_trip z : (0 <= z < 4294967296)%Z -> u32 (as_size z) = z.
Proof. intro H. unfold u32, as_size. rewrite (Z.mod_small z) by lia. now apply Z.mod_small. Qed.
Lemma u32_range z : (0 <= u32 z < 4294967296)%Z.
Proof. apply Z.mod_pos_bound. lia. Qed.
Lemma i32_inv z r : i32 z = Ok r -> r = z /\ (i32_min <= r <= i32_max)%Z.
Proof. unfold i32. destruct (Z.leb_spec i32_min z); destruct (Z.leb_spec z i32_max); cbn; intro E; try discriminate. injection E as <-. auto. Qed.
Lemma obind_ok {A B} (x : outcome A) (f : A -> outcome B) b : obind x f = Ok b -> exists a, x = Ok a /\ f a = Ok b.
Proof. destruct x; cbn; intro E; try discriminate. eauto. Qed.

(** ** Invariants of all histories *)
Section Inv.
  Variables (C : component) (dl : nat) (sh : shared_t C) (P : group_t C -> Prop).
  Hypothesis Hi : P (c_init C sh).
  Hypothesis Ha : forall g v g', P g -> c_add C dl sh g v = Ok g' -> P g'.
  Hypothesis Hp : forall g v n g', P g -> c_rep C dl sh g v n = Ok g' -> P g'.
  Hypothesis Hr : forall g v g', P g -> c_rem C dl sh g v = Ok g' -> P g'.
  Hypothesis Hm : forall g h g', P g -> P h -> c_merge C dl sh g h = Ok g' -> P g'.
  Lemma adds_inv l : forall g g', P g -> c_adds C dl sh g l = Ok g' -> P g'.
  Proof.
    induction l as [|v l IH]; cbn; intros g g' H E; [now injection E as <-|].
    apply obind_ok in E as (g1 & E1 & E2). eauto.
  Qed.
  Lemma grun_inv ops : forall g g', P g -> grun C dl sh g ops = Ok g' -> P g'.
  Proof.
    induction ops as [|o ops IH]; cbn [grun]; intros g g' H E; [now injection E as <-|].
    apply obind_ok in E as (g1 & E1 & E2). apply (IH g1 g'); [|exact E2].
    destruct o; cbn [grun1] in E1; [exact (Ha _ _ _ H E1)|exact (Hr _ _ _ H E1)|exact (Hp _ _ _ _ H E1)|]. apply obind_ok in E1 as (h & Eh & Em).
    apply (Hm g h g1); auto. apply (adds_inv ys (c_init C sh)); auto.
  Qed.
End Inv.

Ltac inv_i32 :=
  repeat match goal with
  | E : obind _ _ = Ok _ |- _ => apply obind_ok in E as (? & ? & E)
  | E : i32 _ = Ok _ |- _ => apply i32_inv in E as [_ E]
  end.

Definition bb_range (g : bb_group) : Prop :=
  (i32_min <= bb_heads g <= i32_max)%Z /\ (i32_min <= bb_tails g <= i32_max)%Z.
Lemma bb_bump_range g (v : bool) n g' : bb_range g -> bb_bump g v n = Ok g' -> bb_range g'.
Proof.
  intros [A B] E. unfold bb_bump in E. destruct v; inv_i32; injection E as <-; split; assumption.
Qed.
Lemma bb_group_range {F} dl (sh : bb_shared F) ops g :
  grun (BB F) dl sh (c_init (BB F) sh) ops = Ok g -> bb_range g.
Proof.
  apply (grun_inv (BB F) dl sh bb_range).
  - split; unfold i32_min, i32_max; cbn; lia.
  - intros g0 v g'. apply bb_bump_range.
  - intros g0 v n g'. apply bb_bump_range.
  - intros g0 v g'. apply bb_bump_range.
  - intros g0 h g' _ _ E. cbn in E. unfold bb_merge in E. inv_i32. injection E as <-. split; assumption.
  - split; unfold i32_min, i32_max; cbn; lia.
Qed.
Lemma bb_trip g : bb_range g -> bb_load (bb_dump g) = g.
Proof. intros [A B]. unfold bb_load, bb_dump. cbn. rewrite !int_trip by assumption. now destruct g. Qed.

Definition u_range (a b : Z) : Prop := (0 <= a < 4294967296)%Z /\ (0 <= b < 4294967296)%Z.
Lemma bnb_group_range {F} dl (sh : bnb_shared F) ops g :
  grun (BNB F) dl sh (c_init (BNB F) sh) ops = Ok g -> u_range (bnb_count g) (bnb_sum g).
Proof.
  apply (grun_inv (BNB F) dl sh (fun g => u_range (bnb_count g) (bnb_sum g))).
  1,6: split; cbn; lia.
  all: intros; match goal with E : _ = Ok _ |- _ => cbn in E; injection E as <- end; split; apply u32_range.
Qed.
Lemma gp_group_range {F} {N : Num F} dl (sh : gp_shared F) ops g :
  grun (GP F) dl sh (c_init (GP F) sh) ops = Ok g -> u_range (gp_count g) (gp_sum g).
Proof.
  apply (grun_inv (GP F) dl sh (fun g => u_range (gp_count g) (gp_sum g))).
  1,6: split; cbn; lia.
  all: intros; match goal with E : _ = Ok _ |- _ => cbn in E; injection E as <- end; split; apply u32_range.
Qed.
Lemma gp_trip {F} (g : gp_group F) : u_range (gp_count g) (gp_sum g) -> gp_load (gp_dump g) = g.
Proof. intros [A B]. unfold gp_load, gp_dump. cbn. rewrite !uint_trip by assumption. now destruct g. Qed.
Lemma bnb_trip g : u_range (bnb_count g) (bnb_sum g) -> bnb_load (bnb_dump g) = g.
Proof. intros [A B]. unfold bnb_load, bnb_dump. cbn. rewrite !uint_trip by assumption. now destruct g. Qed.

Lemma nich_group_range {F} {N : Num F} dl (sh : nich_shared F) ops g :
  grun (NICH F) dl sh (c_init (NICH F) sh) ops = Ok g -> (i32_min <= ni_count g <= i32_max)%Z.
Proof.
  apply (grun_inv (NICH F) dl sh (fun g => (i32_min <= ni_count g <= i32_max)%Z)).
  1,6: unfold i32_min, i32_max; cbn; lia.
  - intros g0 v g' _ E. cbn in E. unfold nich_add in E. inv_i32. injection E as <-. assumption.
  - intros g0 v n g' _ E. cbn in E. unfold nich_rep in E. inv_i32. injection E as <-. assumption.
  - intros g0 v g' _ E. cbn in E. unfold nich_rem in E. inv_i32. injection E as <-. assumption.
  - intros g0 h g' _ _ E. cbn in E. unfold nich_merge in E. inv_i32. injection E as <-. assumption.
Qed.
Lemma nich_trip {F} (g : nich_group F) : (i32_min <= ni_count g <= i32_max)%Z -> nich_load (nich_dump g) = g.
Proof. intro A. unfold nich_load, nich_dump. cbn. rewrite int_trip by assumption. now destruct g. Qed.

(** ** Loading arrays *)
Lemma load_loop {A} (l : list A) : forall pre,
  vfor (length pre) (length l) (fun i v => let* x := vget (pre ++ l) i in Ok (v ++ [x])) pre = Ok (pre ++ l).
Proof.
  induction l as [|a l IH]; intro pre; cbn [length vfor]; [now rewrite app_nil_r|].
  unfold vget at 1. rewrite nth_error_app2, Nat.sub_diag by lia. cbn [nth_error obind].
  specialize (IH (pre ++ [a])). rewrite app_length in IH. cbn [length] in IH. rewrite Nat.add_1_r in IH.
  rewrite <- app_assoc in IH. exact IH.
Qed.
Lemma load_vec_id {F : Set} (l : list F) : load_vec (length l) l = Ok l.
Proof. apply (load_loop l []). Qed.
Lemma dd_shared_trip {F} max_dim (sh : dd_shared F) : (dd_dim sh <= max_dim)%nat ->
  dd_shared_load max_dim (dd_shared_dump sh) = Ok sh.
Proof.
  intro H. unfold dd_shared_load, dd_shared_dump. unfold dd_dim in H. rewrite (proj2 (Nat.leb_le _ _) H). cbn [dassert obind].
  pose proof (load_loop (dd_alphas sh) []) as E. cbn [app length] in E. rewrite E. cbn. now destruct sh.
Qed.

Lemma dd_load_loop (l : list Z) : forall pre, List.Forall (fun c => (0 <= c)%Z) (pre ++ l) -> (zsum (pre ++ l) <= i32_max)%Z ->
  vfor (length pre) (length l) (fun i g =>
      let* x := vget (map as_size (pre ++ l)) i in
      let c := as_int x in
      let* s := i32 (dd_count_sum g + c) in
      Ok (mk_dd (dd_counts g ++ [c]) s)) (mk_dd pre (zsum pre)) = Ok (mk_dd (pre ++ l) (zsum (pre ++ l))).
Proof.
  induction l as [|c l IH]; intros pre H S; cbn [length vfor]; [now rewrite app_nil_r|].
  assert (Z1 : (0 <= zsum l)%Z /\ (0 <= zsum pre)%Z /\ (0 <= c)%Z).
  { assert (G : forall k : list Z, List.Forall (fun c => (0 <= c)%Z) k -> (0 <= zsum k)%Z)
      by (induction 1; cbn [zsum]; lia).
    apply List.Forall_app in H as [H1 H2]. apply List.Forall_cons_iff in H2 as [H2 H3]. auto. }
  rewrite zsum_app in S. cbn [zsum] in S. unfold i32_max in S.
  unfold vget at 1. rewrite map_app, nth_error_app2 by (rewrite map_length; lia). rewrite map_length, Nat.sub_diag.
  cbn [map nth_error obind dd_count_sum dd_counts].
  rewrite int_trip by (unfold i32_min, i32_max; lia).
  rewrite i32_ok by (unfold i32_min, i32_max; lia). cbn [obind].
  specialize (IH (pre ++ [c])). rewrite app_length in IH. cbn [length] in IH. rewrite Nat.add_1_r in IH.
  rewrite <- app_assoc in IH. cbn [app] in IH. rewrite (zsum_app pre [c]) in IH. cbn [zsum] in IH. rewrite Z.add_0_r in IH.
  change (as_size c :: map as_size l) with (map as_size (c :: l)). rewrite <- (map_app as_size pre (c :: l)).
  apply IH; [exact H|]. rewrite zsum_app. cbn [zsum]. unfold i32_max. lia.
Qed.
Lemma dd_load_dump max_dim (g : dd_group) : (length (dd_counts g) <= max_dim)%nat ->
  List.Forall (fun c => (0 <= c)%Z) (dd_counts g) -> (zsum (dd_counts g) <= i32_max)%Z ->
  dd_load max_dim (dd_dump g) = Ok (mk_dd (dd_counts g) (zsum (dd_counts g))).
Proof.
  intros Hd H S. unfold dd_load, dd_dump. rewrite map_length, (proj2 (Nat.leb_le _ _) Hd). cbn [dassert obind].
  exact (dd_load_loop (dd_counts g) [] H S).
Qed.
Lemma tally_nonneg dim l : List.Forall (fun c => (0 <= c)%Z) (tally dim l).
Proof. unfold tally. apply List.Forall_forall. intros c Hc. apply in_map_iff in Hc as (i & <- & _). lia. Qed.
Lemma dd_load_tally max_dim dim l s : (dim <= max_dim)%nat -> in_dim dim l ->
  dd_load max_dim (dd_dump (mk_dd (tally dim l) s)) = Ok (dd_stat dim l).
Proof.
  intros Hd Hl. rewrite dd_load_dump; cbn [dd_counts].
  - rewrite zsum_tally by exact Hl. reflexivity.
  - now rewrite tally_length.
  - apply tally_nonneg.
  - rewrite zsum_tally by exact Hl. destruct Hl as [Hl _]. unfold short in Hl. exact Hl.
Qed.

(** ** Matrices *)
Lemma concat_row {A} (m : list (list A)) d : forall i row, List.Forall (fun r => length r = d) m ->
  nth_error m i = Some row -> forall j, (j < d)%nat -> nth_error (concat m) (i * d + j) = nth_error row j.
Proof.
  induction m as [|r m IH]; intros i row H E j Hj; [destruct i; discriminate E|].
  apply List.Forall_cons_iff in H as [Hr Hm]. cbn [concat]. destruct i as [|i]; cbn [nth_error] in E.
  - injection E as ->. cbn. rewrite nth_error_app1; [reflexivity|]. rewrite Hr. exact Hj.
  - rewrite nth_error_app2 by (rewrite Hr; nia). rewrite Hr. replace (S i * d + j - d)%nat with (i * d + j)%nat by nia.
    now apply IH.
Qed.
Lemma concat_length_sq {A} (m : list (list A)) d : List.Forall (fun r => length r = d) m -> length (concat m) = (length m * d)%nat.
Proof. induction 1 as [|r m Hr _ IH]; cbn [concat length]; [reflexivity|]. rewrite app_length, Hr, IH. lia. Qed.

Lemma vfor_ext {S} n : forall lo (f g : nat -> S -> outcome S) s, (forall i s, (lo <= i < lo + n)%nat -> f i s = g i s) ->
  vfor lo n f s = vfor lo n g s.
Proof.
  induction n as [|n IH]; intros lo f g s H; cbn [vfor]; [reflexivity|].
  rewrite H by lia. destruct (g lo s); cbn; auto. apply IH. intros i s' Hi. apply H. lia.
Qed.
Lemma load_mat_id {F : Set} (m : list (list F)) d : length m = d -> List.Forall (fun r => length r = d) m ->
  load_mat d (concat m) = Ok m.
Proof.
  intros Hl H. unfold load_mat.
  assert (R : forall i row, nth_error m i = Some row ->
    vfor 0 d (fun j r => let* x := vget (concat m) (i * d + j)%nat in Ok (r ++ [x])) [] = Ok row).
  { intros i row E. assert (L : length row = d) by (eapply (proj1 (List.Forall_forall _ _) H), nth_error_In, E).
    rewrite (vfor_ext d 0 _ (fun j r => let* x := vget row j in Ok (r ++ [x]))).
    - rewrite <- L. apply (load_loop row []).
    - intros j s Hj. unfold vget. now rewrite (concat_row m d i row H E) by lia. }
  rewrite (vfor_ext d 0 _ (fun i mm => let* row := vget m i in Ok (mm ++ [row]))).
  - rewrite <- Hl. apply (load_loop m []).
  - intros i s Hi. destruct (nth_error m i) as [row|] eqn:E; [|apply nth_error_None in E; lia].
    rewrite (R i row E). unfold vget. now rewrite E.
Qed.

Section WishartR.
  Variable lg : R -> R.
  #[local] Hint Extern 0 (Num R) => exact (NumR lg) : typeclass_instances.
  Local Open Scope R_scope.

  Lemma omap_tab {A B} (f : A -> outcome B) d (g : nat -> A) (h : nat -> B) :
    (forall i, (i < d)%nat -> f (g i) = Ok (h i)) -> omap f (tab d g) = Ok (tab d h).
  Proof.
    unfold tab. intro H.
    assert (G : forall n s, (s + n <= d)%nat -> omap f (map g (seq s n)) = Ok (map h (seq s n))).
    { induction n as [|n IH]; intros s Hs; [reflexivity|]. cbn [seq map omap]. rewrite H by lia. cbn [obind].
      rewrite IH by lia. reflexivity. }
    apply G. lia.
  Qed.
  Lemma m_transpose_tab d (f : nat -> nat -> R) : m_transpose d (mtab d f) = Ok (mtab d (fun i j => f j i)).
  Proof.
    unfold m_transpose. replace (seq 0 d) with (tab d (fun i => i)) by (unfold tab; apply map_id).
    apply omap_tab. intros j Hj. apply omap_tab. intros i Hi. unfold vget. now rewrite tab_nth.
  Qed.
  Lemma fold_add_acc l : forall a : R, fold_left nadd l a = a + rsum l.
  Proof. induction l as [|x l IH]; intro a; cbn [fold_left rsum]; [lra|]. rewrite IH. cbn [nadd NumR]. lra. Qed.
  Lemma sq_sum_rsum m : sq_sum m = rsum (map (fun e => e * e) (concat m)).
  Proof. unfold sq_sum. rewrite fold_add_acc. apply Rplus_0_l. Qed.
  Lemma sq_sum_nonneg m : 0 <= sq_sum m.
  Proof.
    rewrite sq_sum_rsum. induction (concat m) as [|x l IH]; cbn [map rsum]; [lra|]. pose proof (Rle_0_sqr x). unfold Rsqr in *. lra.
  Qed.
  Lemma sq_sum_zero d : sq_sum (mtab d (fun _ _ => 0)) = 0.
  Proof.
    rewrite sq_sum_rsum.
    assert (H : List.Forall (fun x => x = 0) (concat (mtab d (fun _ _ => 0)))).
    { apply List.Forall_concat, List.Forall_forall. intros r Hr. unfold mtab, tab in Hr. apply in_map_iff in Hr as (i & <- & _).
      apply List.Forall_forall. intros x Hx. apply in_map_iff in Hx as (j & <- & _). reflexivity. }
    induction H as [|x l -> _ IH]; cbn [map rsum]; [reflexivity|]. rewrite IH. lra.
  Qed.
  Lemma is_symmetric_tab d (f : nat -> nat -> R) : (forall i j, (i < d)%nat -> (j < d)%nat -> f i j = f j i) ->
    is_symmetric d (mtab d f) = Ok true.
  Proof.
    intro H. unfold is_symmetric. rewrite m_transpose_tab. cbn [obind].
    rewrite (mtab_ext d (fun i j => f j i) f) by (intros; now apply H).
    rewrite m_bin_tab. cbn [obind]. f_equal.
    rewrite (mtab_ext d (fun i j => nsub (f i j) (f i j)) (fun _ _ => 0)) by (intros; cbn [nsub NumR]; lra).
    rewrite sq_sum_zero. cbn [nleb NumR nmul nlit]. unfold rleb. match goal with |- (if ?x then _ else _) = _ => destruct x as [|C]; [reflexivity|] end. exfalso. apply C.
    apply Rmult_le_pos; [apply Rle_0_sqr|]. unfold fmin. destruct (_ : bool); apply sq_sum_nonneg.
  Qed.

  Lemma square_tab d A : square d A -> A = mtab d (entry A).
  Proof.
    intros [H1 H2]. apply is_mat_tab. split; [exact H1|]. intros i Hi.
    destruct (nth_error A i) as [row|] eqn:E; [|apply nth_error_None in E; lia].
    exists row. split; [reflexivity|]. assert (L : length row = d) by (eapply (proj1 (List.Forall_forall _ _) H2), nth_error_In, E).
    split; [exact L|]. intros j Hj. unfold entry. rewrite (nth_error_nth _ _ _ E). unfold coord.
    apply nth_error_nth'. lia.
  Qed.
  Lemma mtab_square {A} d (f : nat -> nat -> A) : length (mtab d f) = d /\ List.Forall (fun r => length r = d) (mtab d f).
  Proof.
    split; [apply tab_length|]. apply List.Forall_forall. intros r Hr. unfold mtab, tab in Hr.
    apply in_map_iff in Hr as (i & <- & _). now rewrite map_length, seq_length.
  Qed.

  Lemma niw_shared_trip ldlt dl (sh : niw_shared R) : let d := length (nw_mu sh) in
    (0 < d)%nat -> 0 < nw_kappa sh -> square d (nw_psi sh) -> spd d (nw_psi sh) -> INR d - 1 < nw_nu sh ->
    (forall A, square d A -> spd d A -> ldlt A = true) ->
    niw_shared_load ldlt dl (niw_shared_dump sh) = Ok sh.
  Proof.
    intros d Hd Hk Hq Hs Hn Ho. unfold niw_shared_load, niw_shared_dump. cbn [wsm_mu wsm_kappa wsm_psi wsm_nu]. fold d.
    rewrite (proj2 (Nat.ltb_lt 0 d) Hd). cbn [dassert obind]. unfold d at 1. rewrite load_vec_id. cbn [obind].
    replace (nof 0 <? nw_kappa sh)%num with true by (cbn; unfold rltb; destruct (Rlt_dec 0 (nw_kappa sh)); [reflexivity|contradiction]). cbn [dassert obind].
    destruct Hq as [Q1 Q2]. rewrite (concat_length_sq _ d Q2), Q1, Nat.eqb_refl. cbn [dassert obind].
    rewrite (load_mat_id _ d Q1 Q2). cbn [obind].
    assert (E : dassert3 dl (is_spd ldlt d (nw_psi sh)) = Ok tt).
    { unfold dassert3. destruct (3 <=? dl)%nat; [|reflexivity]. unfold is_spd.
      rewrite (square_tab d (nw_psi sh) (conj Q1 Q2)) at 1. rewrite is_symmetric_tab by apply Hs. cbn [obind].
      rewrite (Ho _ (conj Q1 Q2) Hs). reflexivity. }
    rewrite E. cbn [obind]. rewrite Q1. fold d. rewrite Nat.eqb_refl. cbn [dassert obind].
    replace (nof (Z.of_nat d) - nof 1 <? nw_nu sh)%num with true.
    2:{ cbn. unfold rltb. match goal with |- _ = (if ?x then _ else _) => destruct x as [|C]; [reflexivity|] end. exfalso. apply C. rewrite <- INR_IZR_INZ. exact Hn. }
    cbn [dassert obind]. now destruct sh.
  Qed.
  Lemma niw_trip dl d l : (0 < d)%nat -> niw_load dl (niw_dump (niw_stat d l)) = Ok (niw_stat d l).
  Proof.
    intro Hd. unfold niw_load, niw_dump, niw_stat. cbn [wm_count wm_sum_x wm_sum_xxT nw_count nw_sum_x nw_sum_xxT].
    rewrite tab_length, (proj2 (Nat.ltb_lt 0 d) Hd). cbn [dassert obind].
    replace d with (length (tab d (sx l))) at 1 by apply tab_length. rewrite load_vec_id. cbn [obind].
    destruct (mtab_square d (sxx l)) as [Q1 Q2].
    rewrite (concat_length_sq _ d Q2), Q1, Nat.eqb_refl. cbn [dassert obind]. rewrite (load_mat_id _ d Q1 Q2). cbn [obind].
    assert (E : dassert3 dl (is_symmetric d (mtab d (sxx l))) = Ok tt).
    { unfold dassert3. destruct (3 <=? dl)%nat; [|reflexivity]. rewrite is_symmetric_tab; [reflexivity|].
      intros i j _ _. unfold sxx. f_equal. apply map_ext. intro x. apply Rmult_comm. }
    rewrite E. cbn [obind]. rewrite tab_length, Q1, Nat.eqb_refl. reflexivity.
  Qed.
End WishartR.

(** ** Arbitrary messages *)
Lemma chunks {A} d : forall n (l : list A), length l = (n * d)%nat ->
  exists m, l = concat m /\ length m = n /\ List.Forall (fun r => length r = d) m.
Proof.
  induction n as [|n IH]; intros l H.
  - destruct l; [|discriminate H]. exists []. repeat split. constructor.
  - rewrite Nat.mul_succ_l in H. destruct (IH (skipn d l)) as (m & E & L & Fa); [rewrite skipn_length; lia|].
    exists (firstn d l :: m). cbn [concat length]. rewrite <- E, firstn_skipn. repeat split; [lia|].
    constructor; [|exact Fa]. rewrite firstn_length, H. apply Nat.min_l. lia.
Qed.
Lemma load_mat_any {F : Set} d (l : list F) : length l = (d * d)%nat ->
  exists m, load_mat d l = Ok m /\ concat m = l /\ length m = d /\ List.Forall (fun r => length r = d) m.
Proof.
  intro H. destruct (chunks d d l H) as (m & -> & L & Fa). exists m. split; [|auto]. now apply load_mat_id.
Qed.
Lemma zip_ok {A B C} (f : A -> B -> outcome C) x : forall y, length x = length y ->
  (forall a b, In a x -> In b y -> exists c, f a b = Ok c) -> exists z, zip_with f x y = Ok z.
Proof.
  induction x as [|a x IH]; intros [|b y] H Hf; try discriminate H; [now exists []|].
  destruct (Hf a b) as (c & Ec); [now left|now left|]. destruct (IH y) as (z & Ez); [now injection H|intros; apply Hf; now right|].
  exists (c :: z). cbn [zip_with]. rewrite Ec. cbn [obind]. rewrite Ez. reflexivity.
Qed.
Lemma omap_ok {A B} (f : A -> outcome B) (P : B -> Prop) l : (forall a, In a l -> exists b, f a = Ok b /\ P b) ->
  exists r, omap f l = Ok r /\ length r = length l /\ List.Forall P r.
Proof.
  induction l as [|a l IH]; intro H; [now exists []|]. destruct (H a) as (b & Eb & Pb); [now left|].
  destruct IH as (r & Er & L & Fa); [intros; apply H; now right|].
  exists (b :: r). cbn [omap]. rewrite Eb. cbn [obind]. rewrite Er. cbn [obind length]. auto.
Qed.
Lemma is_symmetric_any {F : Set} {N : Num F} d (m : list (list F)) : length m = d -> List.Forall (fun r => length r = d) m ->
  exists b, is_symmetric d m = Ok b.
Proof.
  intros L H. unfold is_symmetric.
  destruct (omap_ok (fun j => omap (fun row : list F => vget row j) m) (fun r => length r = d) (seq 0 d)) as (t & Et & Lt & Ht).
  { intros j Hj. apply in_seq in Hj. destruct (omap_ok (fun row : list F => vget row j) (fun _ => True) m) as (r & Er & Lr & _).
    - intros row Hr. pose proof (proj1 (List.Forall_forall _ _) H row Hr) as Lr. cbn beta in Lr. unfold vget.
      destruct (nth_error row j) eqn:E; [eauto|]. apply nth_error_None in E. lia.
    - exists r. split; [exact Er|]. lia. }
  unfold m_transpose. rewrite Et. cbn [obind]. rewrite seq_length in Lt.
  destruct (zip_ok (v_bin nsub) m t) as (z & Ez); [etransitivity; [exact L|symmetry; exact Lt]| |unfold m_bin; rewrite Ez; cbn [obind]; eauto].
  intros a b Ha Hb. pose proof (proj1 (List.Forall_forall _ _) H a Ha) as La. pose proof (proj1 (List.Forall_forall _ _) Ht b Hb) as Lb.
  cbn beta in La, Lb. unfold v_bin. apply zip_ok; [etransitivity; [exact La|symmetry; exact Lb]|]. intros. eauto.
Qed.
Lemma dassert_cases b : dassert b = Fail \/ dassert b = Ok tt.
Proof. destruct b; auto. Qed.
Lemma dassert3_cases dl b : dassert3 dl (Ok b) = Fail \/ dassert3 dl (Ok b) = Ok tt.
Proof. unfold dassert3. destruct (_ <=? _)%nat; [apply dassert_cases|auto]. Qed.
Ltac check_step := match goal with |- context [dassert ?b] => destruct b; cbn [dassert obind]; [|now left] end.
Lemma niw_load_any {F : Set} {N : Num F} dl (m : niw_msg F) :
  niw_load dl m = Fail \/ exists g, niw_load dl m = Ok g /\ niw_dump g = m.
Proof.
  unfold niw_load. check_step. rewrite load_vec_id. cbn [obind].
  destruct (Nat.eqb_spec (length (wm_sum_x m) * length (wm_sum_x m)) (length (wm_sum_xxT m))) as [E|]; cbn [dassert obind]; [|now left].
  destruct (load_mat_any (length (wm_sum_x m)) (wm_sum_xxT m)) as (q & Eq & Ec & Lq & Fq); [now rewrite E|]. rewrite Eq. cbn [obind].
  destruct (is_symmetric_any _ q Lq Fq) as (b & Eb). rewrite Eb.
  destruct (dassert3_cases dl b) as [Ea|Ea]; rewrite Ea; cbn [obind]; [now left|].
  check_step. right. eexists. split; [reflexivity|]. unfold niw_dump. cbn. rewrite Ec. now destruct m.
Qed.
Lemma niw_shared_load_any {F : Set} {N : Num F} ldlt dl (m : niw_shared_msg F) :
  niw_shared_load ldlt dl m = Fail \/ exists sh, niw_shared_load ldlt dl m = Ok sh /\ niw_shared_dump sh = m.
Proof.
  unfold niw_shared_load. check_step. rewrite load_vec_id. cbn [obind]. check_step.
  destruct (Nat.eqb_spec (length (wsm_mu m) * length (wsm_mu m)) (length (wsm_psi m))) as [E|]; cbn [dassert obind]; [|now left].
  destruct (load_mat_any (length (wsm_mu m)) (wsm_psi m)) as (q & Eq & Ec & Lq & Fq); [now rewrite E|]. rewrite Eq. cbn [obind].
  destruct (is_symmetric_any _ q Lq Fq) as (b & Eb). unfold is_spd. rewrite Eb. cbn [obind].
  destruct (dassert3_cases dl (if b then ldlt q else false)) as [Ea|Ea]; rewrite Ea; cbn [obind]; [now left|].
  check_step. check_step. right. eexists. split; [reflexivity|]. unfold niw_shared_dump. cbn. rewrite Ec. now destruct m.
Qed.
Lemma as_size_as_int x : (0 <= x < 18446744073709551616)%Z ->
  as_size (as_int x) = x <-> (x <= 2147483647 \/ 18446744073709551616 - 2147483648 <= x)%Z.
Proof.
  intro H. unfold as_size, as_int, i32_max. pose proof (Z.mod_pos_bound x 4294967296 ltac:(lia)) as B.
  pose proof (Z.div_mod x 4294967296 ltac:(lia)) as D.
  set (q := (x / 4294967296)%Z) in *. set (r := (x mod 4294967296)%Z) in *. clearbody q r.
  destruct (Z.leb_spec r 2147483647).
  - rewrite Z.mod_small by lia. split; intro; nia.
  - rewrite <- (Z_mod_plus_full (r - 4294967296) 1), Z.mod_small by lia. split; intro; nia.
Qed.
Lemma as_size_u32 x : (0 <= x < 18446744073709551616)%Z -> as_size (u32 x) = x <-> (x < 4294967296)%Z.
Proof.
  intro H. unfold as_size, u32. pose proof (Z.mod_pos_bound x 4294967296 ltac:(lia)) as B. rewrite Z.mod_small by lia. split.
  - intros <-. lia.
  - intro. apply Z.mod_small. lia.
Qed.
