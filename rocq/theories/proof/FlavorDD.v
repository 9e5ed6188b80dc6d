(** Dirichlet-discrete: the C++ group against the Python and the Cython one. *)
From Coq Require Import Reals Lra Lia.
From Verif.model Require Import Base Num NumR VectorMath Component HistoryRun DD Dbg.
From Verif.spec Require Import GroupSpec VectorSpec FlavorSpec LgammaSpec.
From Verif.proof Require Import BaseProof VectorProof LoopProof DDProof LgammaProof ScoreProof DDScore FlavorProof.
Local Open Scope R_scope.

(** ** Lists *)
Lemma vget_at : forall A (p : list A) a q, vget (p ++ a :: q) (length p) = Ok a.
Proof. intros. unfold vget. rewrite nth_error_app2 by lia. now rewrite Nat.sub_diag. Qed.
Lemma vset_at : forall A (p : list A) a q b, vset (p ++ a :: q) (length p) b = Ok (p ++ b :: q).
Proof.
  intros. unfold vset. rewrite app_length. cbn [length]. rewrite (proj2 (Nat.ltb_lt _ _)) by lia. f_equal.
  induction p as [|x p IH]; cbn; [reflexivity|now rewrite IH].
Qed.

(** ** Merge *)
Lemma dd_merge_loop : forall g src pre spre, length spre = length pre ->
  vfor (length pre) (length g) (fun i cs =>
      let* c := vget cs i in
      let* d := vget (spre ++ src) i in
      let* e := i32 (c + d) in
      vset cs i e) (pre ++ g)
  = (let* r := hp_dd_merge g src in Ok (pre ++ r)).
Proof.
  induction g as [|c g IH]; intros src pre spre HL; cbn [length vfor hp_dd_merge].
  - reflexivity.
  - rewrite vget_at. cbn [obind]. destruct src as [|d src].
    + rewrite app_nil_r. unfold vget at 1. rewrite (proj2 (nth_error_None spre (length pre))) by lia. reflexivity.
    + replace (vget (spre ++ d :: src) (length pre)) with (Ok d) by (rewrite <- HL; symmetry; apply vget_at).
      cbn [obind]. destruct (i32 (c + d)) as [e| |]; cbn [obind]; try reflexivity.
      rewrite vset_at. cbn [obind].
      specialize (IH src (pre ++ [e]) (spre ++ [d])). rewrite !app_length in IH. cbn [length] in IH.
      rewrite !Nat.add_1_r in IH. rewrite <- !app_assoc in IH. cbn [app] in IH. rewrite IH by lia.
      destruct (hp_dd_merge g src); cbn [obind]; try reflexivity. now rewrite <- app_assoc.
Qed.
Lemma dd_merge_hp : forall dl (sh : dd_shared R) g src,
  dd_merge dl sh g src = (let* cs := hp_dd_merge (dd_counts g) (dd_counts src) in Ok (mk_dd cs (dd_count_sum g))).
Proof.
  intros. unfold dd_merge. pose proof (dd_merge_loop (dd_counts g) (dd_counts src) [] [] eq_refl) as H.
  cbn [length app] in H. rewrite H. destruct (hp_dd_merge _ _); reflexivity.
Qed.
Lemma hp_merge_py : forall g src r, length g = length src -> hp_dd_merge g src = Ok r ->
  py_dd_merge g src = Ok r /\ length r = length g.
Proof.
  intros g src r HL H. unfold py_dd_merge. rewrite HL, Nat.eqb_refl.
  revert src r HL H. induction g as [|c g IH]; intros [|d src] r HL H; cbn in *; try discriminate.
  - injection H as <-. auto.
  - destruct (i32 (c + d)) as [e| |] eqn:E; try discriminate. apply i32_ok in E. cbn [obind] in H.
    destruct (hp_dd_merge g src) as [r'| |] eqn:E'; try discriminate. injection H as <-.
    destruct (IH src r' ltac:(lia) E') as [A B]. injection A as <-. subst e. cbn. split; [reflexivity|lia].
Qed.

(** ** One value *)
Definition dd_rel (dim : nat) (g : dd_group) (p : list Z) : Prop := dd_counts g = p /\ length p = dim.
Lemma dd_bump_hp : forall dl g v n g1, dd_bump dl g v n = Ok g1 ->
  hp_dd_bump (dd_counts g) v n = Ok (dd_counts g1) /\ dd_count_sum g1 = (dd_count_sum g + n)%Z.
Proof.
  intros dl g v n g1 H. unfold dd_bump, hp_dd_bump in *.
  destruct (dassert_at _ _ _); try discriminate. cbn [obind] in H.
  destruct (i32 (dd_count_sum g + n)) as [s| |] eqn:E; try discriminate. apply i32_ok in E. cbn [obind] in H.
  destruct (zget (dd_counts g) v) as [c| |]; try discriminate. cbn [obind] in *.
  destruct (i32 (c + n)) as [c'| |]; try discriminate. cbn [obind] in *.
  destruct (zset (dd_counts g) v c') as [cs| |]; try discriminate. injection H as <-. auto.
Qed.
Lemma hp_bump_py : forall g v n r, hp_dd_bump g v n = Ok r ->
  py_dd_bump g v n = Ok r /\ length r = length g /\ (0 <= v < Z.of_nat (length g))%Z.
Proof.
  intros g v n r H. unfold hp_dd_bump, py_dd_bump, zget, zset, py_index in *.
  destruct (Z.ltb_spec v 0); [discriminate|].
  unfold vget, vset in *. destruct (nth_error g (Z.to_nat v)) as [c|] eqn:E; [|discriminate]. cbn [obind] in H.
  assert (Hv : (Z.to_nat v < length g)%nat) by (apply nth_error_Some; congruence).
  destruct (i32 (c + n)) as [c'| |] eqn:E'; try discriminate. apply i32_ok in E'. cbn [obind] in H.
  rewrite (proj2 (Nat.ltb_lt _ _) Hv) in H. injection H as <-.
  rewrite (proj2 (Z.leb_le 0 v)), (proj2 (Z.ltb_lt v _)) by lia. cbn [andb obind]. rewrite E. cbn [obind].
  rewrite (proj2 (Nat.ltb_lt _ _) Hv). subst c'. split; [reflexivity|]. split; [apply length_upd|lia].
Qed.

(** ** Histories *)
Lemma dd_hp_sim : forall dl (sh : dd_shared R) l g, hrun (DD R) dl sh l = Ok g ->
  hrun (HpDD R) dl sh l = Ok (dd_counts g) /\ hrun (PyDD R) dl sh l = Ok (dd_counts g) /\
  length (dd_counts g) = dd_dim sh.
Proof.
  intros dl sh l g H.
  assert (HB : forall g0 p v n, dd_rel (dd_dim sh) g0 p ->
    follows _ _ (dd_rel (dd_dim sh)) False (dd_bump dl g0 v n) (hp_dd_bump p v n) /\
    follows _ _ (dd_rel (dd_dim sh)) False (dd_bump dl g0 v n) (py_dd_bump p v n)).
  { intros g0 p v n [<- HL]. split; intros g1 E; left; exists (dd_counts g1).
    all: destruct (dd_bump_hp _ _ _ _ _ E) as [A _]; destruct (hp_bump_py _ _ _ _ A) as (B & L1 & _).
    all: (split; [assumption|]); split; [reflexivity|lia]. }
  assert (HM : forall g0 p g' p', dd_rel (dd_dim sh) g0 p -> dd_rel (dd_dim sh) g' p' ->
    follows _ _ (dd_rel (dd_dim sh)) False (dd_merge dl sh g0 g') (hp_dd_merge p p') /\
    follows _ _ (dd_rel (dd_dim sh)) False (dd_merge dl sh g0 g') (py_dd_merge p p')).
  { intros g0 p g' p' [<- HL] [<- HL']. split; intros g1 E; rewrite dd_merge_hp in E;
      destruct (hp_dd_merge (dd_counts g0) (dd_counts g')) as [cs| |] eqn:Q; try discriminate; injection E as <-.
    all: destruct (hp_merge_py _ _ _ (eq_trans HL (eq_sym HL')) Q) as [A L]; left; exists cs.
    all: (split; [assumption || reflexivity|]); split; [reflexivity|cbn; lia]. }
  split; [|split].
  - destruct (sim_of (DD R) (HpDD R) dl dl sh sh (fun _ => True) (dd_rel (dd_dim sh)) False) with (l := l) (g := g)
      as [(p & E & <- & _)|[[] _]]; try exact E; try exact H.
    + split; [reflexivity|apply repeat_length].
    + intros g0 p v _ R. exact (proj1 (HB g0 p v 1%Z R)).
    + intros g0 p v n _ R. exact (proj1 (HB g0 p v n R)).
    + intros g0 p v _ R. exact (proj1 (HB g0 p v (-1)%Z R)).
    + intros g0 p g' p' R R'. exact (proj1 (HM _ _ _ _ R R')).
    + now apply all_values_True.
  - destruct (sim_of (DD R) (PyDD R) dl dl sh sh (fun _ => True) (dd_rel (dd_dim sh)) False) with (l := l) (g := g)
      as [(p & E & <- & _)|[[] _]]; try exact E; try exact H.
    + split; [reflexivity|apply repeat_length].
    + intros g0 p v _ R. exact (proj2 (HB g0 p v 1%Z R)).
    + intros g0 p v n _ R. exact (proj2 (HB g0 p v n R)).
    + intros g0 p v _ R. exact (proj2 (HB g0 p v (-1)%Z R)).
    + intros g0 p g' p' R R'. exact (proj2 (HM _ _ _ _ R R')).
    + now apply all_values_True.
  - destruct (sim_of (DD R) (PyDD R) dl dl sh sh (fun _ => True) (dd_rel (dd_dim sh)) False) with (l := l) (g := g)
      as [(p & E & <- & L)|[[] _]]; try exact L; try exact H.
    + split; [reflexivity|apply repeat_length].
    + intros g0 p v _ R. exact (proj2 (HB g0 p v 1%Z R)).
    + intros g0 p v n _ R. exact (proj2 (HB g0 p v n R)).
    + intros g0 p v _ R. exact (proj2 (HB g0 p v (-1)%Z R)).
    + intros g0 p g' p' R R'. exact (proj2 (HM _ _ _ _ R R')).
    + now apply all_values_True.
Qed.

(** ** count_sum without merges *)
Lemma py_zsum_from : forall l a, fold_left Z.add l a = (a + py_zsum l)%Z.
Proof.
  unfold py_zsum. induction l as [|x l IH]; intro a; cbn; [lia|]. rewrite (IH (a + x)%Z), (IH x). lia.
Qed.
Lemma py_zsum_cons : forall x l, py_zsum (x :: l) = (x + py_zsum l)%Z.
Proof. intros. unfold py_zsum at 1. cbn. rewrite py_zsum_from. lia. Qed.
Lemma py_zsum_upd : forall l i c n, nth_error l i = Some c -> py_zsum (upd l i (c + n)%Z) = (py_zsum l + n)%Z.
Proof.
  induction l as [|x l IH]; intros [|i] c n H; cbn in H; try discriminate.
  - injection H as ->. cbn [upd]. rewrite !py_zsum_cons. lia.
  - cbn [upd]. rewrite !py_zsum_cons, (IH i c n H). lia.
Qed.
Lemma py_zsum_repeat : forall n, py_zsum (repeat 0%Z n) = 0%Z.
Proof. induction n; cbn [repeat]; [reflexivity|]. now rewrite py_zsum_cons, IHn. Qed.
Lemma hp_bump_sum : forall g v n r, hp_dd_bump g v n = Ok r -> py_zsum r = (py_zsum g + n)%Z.
Proof.
  intros g v n r H. unfold hp_dd_bump, zget, zset in H.
  destruct (Z.ltb_spec v 0); [discriminate|].
  unfold vget, vset in *. destruct (nth_error g (Z.to_nat v)) as [c|] eqn:E; [|discriminate]. cbn [obind] in H.
  destruct (i32 (c + n)) as [c'| |] eqn:E'; try discriminate. apply i32_ok in E'. cbn [obind] in H.
  destruct (_ <? _)%nat; [|discriminate]. injection H as <-. subst c'. now apply py_zsum_upd.
Qed.
Lemma dd_sum_runs : forall dl (sh : dd_shared R) l g g1, merge_free l -> hruns (DD R) dl sh g l = Ok g1 ->
  dd_count_sum g = py_zsum (dd_counts g) -> dd_count_sum g1 = py_zsum (dd_counts g1).
Proof.
  induction l as [|o l IH]; intros g g1 HM H HS; cbn [hruns] in H; [injection H as <-; exact HS|].
  inversion HM as [|? ? M1 M2]; subst.
  destruct (hrun1 (DD R) dl sh g o) as [g'| |] eqn:E; try discriminate. cbn [obind] in H.
  apply (IH g' g1 M2 H). destruct o as [v|v|v n|src]; [| | |contradiction].
  all: cbn in E; destruct (dd_bump_hp _ _ _ _ _ E) as [A B]; rewrite B, (hp_bump_sum _ _ _ _ A); lia.
Qed.
Lemma dd_sum_run : forall dl (sh : dd_shared R) l g, merge_free l -> hrun (DD R) dl sh l = Ok g ->
  dd_count_sum g = py_zsum (dd_counts g).
Proof.
  intros dl sh l g HM H. apply (dd_sum_runs dl sh l _ g HM H). cbn. symmetry. apply py_zsum_repeat.
Qed.

(** ** Sums *)
Lemma sumf_shift : forall f n, sumf f (S n) = f 0%nat + sumf (fun i => f (S i)) n.
Proof. intros f n. induction n as [|n IH]; [cbn; lra|]. cbn [sumf] in *. rewrite IH. lra. Qed.
Lemma fold_sum_from : forall l a, fold_left Rplus l a = a + sumf (rn l) (length l).
Proof.
  induction l as [|x l IH]; intro a; [cbn; lra|]. cbn [fold_left length]. rewrite IH, sumf_shift. cbn. unfold rn. cbn. lra.
Qed.
Lemma py_fsum_asum : forall lg l, py_fsum (N:=NumR lg) l = asum l.
Proof. intros. unfold py_fsum, asum. cbn. rewrite fold_sum_from. lra. Qed.
Lemma py_zsum_sumf : forall l, IZR (py_zsum l) = sumf (fun i => IZR (nth i l 0%Z)) (length l).
Proof.
  induction l as [|x l IH]; [reflexivity|]. rewrite py_zsum_cons, plus_IZR, IH. cbn [length]. now rewrite sumf_shift.
Qed.

(** ** Scores *)
Lemma py_get_in : forall A (l : list A) v a, nth_error l v = Some a -> py_get l (Z.of_nat v) = Ok a.
Proof.
  intros A l v a H. assert (Hv : (v < length l)%nat) by (apply nth_error_Some; congruence).
  unfold py_get, py_index. rewrite (proj2 (Z.ltb_ge _ 0)) by lia.
  rewrite (proj2 (Z.leb_le 0 _)), (proj2 (Z.ltb_lt _ _)) by lia. cbn [andb obind]. rewrite Nat2Z.id. unfold vget. now rewrite H.
Qed.
Lemma dd_sv : forall lg dl (sh : dd_shared R) g v s, length (dd_counts g) = dd_dim sh ->
  dd_score_value (N:=NumR lg) dl sh g v = Ok s ->
  py_dd_score_value (N:=NumR lg) sh (dd_counts g) v = Ok s /\
  hp_dd_score_value (N:=NumR lg) sh (dd_counts g) v = Ok s.
Proof.
  intros lg dl sh g v s HL H.
  assert (Hv : (0 <= v < Z.of_nat (dd_dim sh))%Z).
  { unfold dd_score_value in H. destruct (dd_scorer_init_eq lg sh g HL) as (ps & E & Lp & Hp). rewrite E in H. cbn [obind] in H.
    unfold dd_scorer_eval, zget in H. destruct (dassert_at _ _ _); try discriminate. cbn [obind snd] in H.
    destruct (Z.ltb_spec v 0); try discriminate. unfold vget in H.
    destruct (nth_error ps (Z.to_nat v)) eqn:E'; try discriminate.
    assert (Z.to_nat v < length ps)%nat by (apply nth_error_Some; congruence). lia. }
  rewrite <- (Z2Nat.id v) in H |- * by lia. set (k := Z.to_nat v) in *.
  assert (Hk : (k < dd_dim sh)%nat) by (unfold k; lia). clearbody k. clear v Hv.
  rewrite (dd_score_value_eq lg dl sh g k HL Hk) in H. injection H as <-.
  assert (Ha := nth_rn (dd_alphas sh) k Hk).
  assert (Hc : nth_error (dd_counts g) k = Some (nth k (dd_counts g) 0%Z)) by (apply nth_error_nth'; lia).
  split.
  - unfold py_dd_score_value. rewrite (py_get_in _ _ _ _ Hc), (py_get_in _ _ _ _ Ha). cbn [obind].
    rewrite py_fsum_asum. cbn. f_equal. rewrite py_zsum_sumf, HL, sumf_plus.
    unfold cn, asum. fold (dd_dim sh). f_equal. f_equal; lra.
  - unfold hp_dd_score_value.
    assert (HG : forall (a : list R) (m : list Z) t, length m = length a ->
      (fix go (a : list R) (m : list Z) (t : R) : outcome R :=
         match a, m with
         | [], _ => Ok t
         | a :: a', m :: m' => go a' m' (t + (IZR m + a))
         | _ :: _, [] => UB
         end) a m t = Ok (t + sumf (fun i => rn a i + IZR (nth i m 0%Z)) (length a))).
    { induction a as [|x a IH]; intros [|c m] t L; try discriminate L; [cbn; f_equal; lra|].
      rewrite IH by (cbn in L; lia). cbn [length]. rewrite sumf_shift. f_equal. unfold rn. cbn. lra. }
    change nadd with (@nadd R (NumR lg)). cbn [nadd nof NumR]. rewrite HG by exact HL. cbn [obind].
    unfold zget. rewrite (proj2 (Z.ltb_ge _ 0)) by lia. rewrite Nat2Z.id. unfold vget. rewrite Hc. cbn [obind].
    rewrite Ha. cbn [obind]. cbn. f_equal. unfold cn. fold (dd_dim sh).
    f_equal. f_equal; lra.
Qed.
Lemma dd_sd_py : forall lg (sh : dd_shared R) (m : list Z), length m = dd_dim sh ->
  py_dd_score_data (N:=NumR lg) sh m = Ok (dd_sd lg (dd_alphas sh) (mk_dd m (py_zsum m))).
Proof.
  intros lg sh m HL. unfold py_dd_score_data. cbn [nlgamma nadd nsub nof NumR].
  assert (HG : forall (a : list R) (m : list Z), length m = length a -> exists ts,
      (fix go (a : list R) (m : list Z) : outcome (list R) :=
         match a, m with
         | [], _ => Ok []
         | a :: a', m :: m' => let* r := go a' m' in Ok ((lg (a + IZR m) - lg a) :: r)
         | _ :: _, [] => Fail
         end) a m = Ok ts /\ asum ts = sumf (fun i => lg (rn a i + IZR (nth i m 0%Z)) - lg (rn a i)) (length a)).
  { clear. induction a as [|x a IH]; intros [|c m] L; try discriminate L; [exists []; split; reflexivity|].
    destruct (IH m ltac:(cbn in L; lia)) as (ts & -> & E). eexists. split; [reflexivity|].
    unfold asum in *. cbn [length]. rewrite !sumf_shift. unfold rn in *. cbn [nth]. rewrite E. lra. }
  destruct (HG (dd_alphas sh) m HL) as (ts & -> & E). cbn [obind]. rewrite !py_fsum_asum, E.
  f_equal. unfold dd_sd, cn. cbn [dd_counts dd_count_sum]. lra.
Qed.
Lemma hp_sd : forall lg (sh : dd_shared R) (m : list Z) s, length m = dd_dim sh ->
  hp_dd_score_data (N:=NumR lg) sh m = Ok s -> py_dd_score_data (N:=NumR lg) sh m = Ok s.
Proof.
  intros lg sh m s HL H. rewrite dd_sd_py by exact HL. unfold hp_dd_score_data in H.
  cbn [nlgamma nadd nsub nof NumR] in H.
  assert (HG : forall (a : list R) (m : list Z) t n r, length m = length a ->
      (fix go (a : list R) (m : list Z) (t : R) (n : Z) : outcome (R * Z) :=
      match a, m with
      | [], _ => Ok (t, n)
      | a :: a', m :: m' =>
          let* n := i32 (n + m) in
          go a' m' (t + (lg (a + IZR m) - lg a)) n
      | _ :: _, [] => UB
      end) a m t n = Ok r ->
      fst r = t + sumf (fun i => lg (rn a i + IZR (nth i m 0%Z)) - lg (rn a i)) (length a) /\ snd r = (n + py_zsum m)%Z).
  { clear. induction a as [|x a IH]; intros [|c m] t n r L H; try discriminate L.
    - injection H as <-. cbn. split; [lra|unfold py_zsum; cbn; lia].
    - destruct (i32 (n + c)) as [n'| |] eqn:E; try discriminate. apply i32_ok in E. cbn [obind] in H.
      destruct (IH m _ _ r ltac:(cbn in L; lia) H) as [-> ->]. cbn [length]. rewrite sumf_shift, py_zsum_cons.
      unfold rn. cbn [nth]. split; [lra|lia]. }
  match type of H with obind ?x _ = _ => destruct x as [r| |] eqn:E; try discriminate end. cbn [obind] in H.
  destruct (HG _ _ _ _ _ HL E) as [A B]. rewrite A, B in H. injection H as <-. f_equal.
  rewrite py_fsum_asum. unfold dd_sd, cn. cbn [dd_counts dd_count_sum]. cbn [Z.add]. fold (dd_dim sh). lra.
Qed.
Lemma dd_sd_merge_free : forall lg dl (sh : dd_shared R) l g, merge_free l -> hrun (DD R) dl sh l = Ok g ->
  dd_score_data (N:=NumR lg) sh g = py_dd_score_data (N:=NumR lg) sh (dd_counts g).
Proof.
  intros lg dl sh l g HM H. destruct (dd_hp_sim dl sh l g H) as (_ & _ & L).
  rewrite dd_sd_py by exact L. rewrite (dd_score_data_eq lg sh g L).
  rewrite <- (dd_sum_run dl sh l g HM H). now destruct g.
Qed.
