(** Simulation between two implementations of a component, and its use for the Python flavours. *)
From Coq Require Import Reals Lra Lia.
From Verif.model Require Import Base Num NumR Component HistoryRun BB GP BNB NICH DD NIW Dbg DbgNIW.
From Verif.spec Require Import FlavorSpec LgammaSpec.
From Verif.proof Require Import BaseProof.

(** ** The general simulation *)

Section Sim2.
  Variables (V SC SP GC GP' : Type).
  Variables (iC : SC -> GC) (aC : nat -> SC -> GC -> V -> outcome GC) (pC : nat -> SC -> GC -> V -> Z -> outcome GC)
            (rC : nat -> SC -> GC -> V -> outcome GC) (mC : nat -> SC -> GC -> GC -> outcome GC).
  Variables (iP : SP -> GP') (aP : nat -> SP -> GP' -> V -> outcome GP') (pP : nat -> SP -> GP' -> V -> Z -> outcome GP')
            (rP : nat -> SP -> GP' -> V -> outcome GP') (mP : nat -> SP -> GP' -> GP' -> outcome GP').
  Let C := mk_component SC GC V iC aC pC rC mC.
  Let P := mk_component SP GP' V iP aP pP rP mP.
  Variables (dc dp : nat) (sc : SC) (sp : SP) (ok : V -> Prop) (rel : GC -> GP' -> Prop) (esc : Prop).

  (** Where [x] returns, [y] returns a related group or (if [esc]) raises. *)
  Definition follows (x : outcome GC) (y : outcome GP') : Prop :=
    forall g, x = Ok g -> (exists p, y = Ok p /\ rel g p) \/ (esc /\ y = Fail).

  Hypothesis Hi : rel (iC sc) (iP sp).
  Hypothesis Ha : forall g p v, ok v -> rel g p -> follows (aC dc sc g v) (aP dp sp p v).
  Hypothesis Hp : forall g p v n, ok v -> rel g p -> follows (pC dc sc g v n) (pP dp sp p v n).
  Hypothesis Hr : forall g p v, ok v -> rel g p -> follows (rC dc sc g v) (rP dp sp p v).
  Hypothesis Hm : forall g p g' p', rel g p -> rel g' p' -> follows (mC dc sc g g') (mP dp sp p p').

  Lemma hruns_go : forall (D : component) d (s : shared_t D) l g,
    (fix go (g : group_t D) (l : list (hop (value_t D))) : outcome (group_t D) :=
       match l with [] => Ok g | o :: t => let* g' := hrun1 D d s g o in go g' t end) g l = hruns D d s g l.
  Proof. intros D d s l. induction l as [|o l IH]; intro g; cbn; [reflexivity|]. destruct (hrun1 D d s g o); cbn; auto. Qed.

  Lemma hop_all_go : forall (Q : V -> Prop) l,
    (fix all (l : list (hop V)) := match l with [] => True | o :: t => hop_all Q o /\ all t end) l = all_values Q l.
  Proof. intros Q l. induction l as [|o l IH]; cbn; [reflexivity|]. now rewrite IH. Qed.

  Fixpoint hop_ind' (Q : hop V -> Prop)
    (qa : forall v, Q (HAdd v)) (qr : forall v, Q (HRem v)) (qp : forall v n, Q (HRep v n))
    (qm : forall l, List.Forall Q l -> Q (HMerge l)) (o : hop V) : Q o :=
    match o with
    | HAdd v => qa v | HRem v => qr v | HRep v n => qp v n
    | HMerge l => qm l ((fix go l : List.Forall Q l :=
        match l with [] => List.Forall_nil Q | o :: t => List.Forall_cons o (hop_ind' Q qa qr qp qm o) (go t) end) l)
    end.

  Lemma sim_runs : forall l,
    List.Forall (fun o => forall g p, hop_all ok o -> rel g p -> follows (hrun1 C dc sc g o) (hrun1 P dp sp p o)) l ->
    forall g p, all_values ok l -> rel g p -> follows (hruns C dc sc g l) (hruns P dp sp p l).
  Proof.
    induction l as [|o l IH]; intros HF g p HV HR g1; cbn [hruns].
    - intros [= <-]. left. now exists p.
    - destruct HV as [H1 H2]. inversion HF as [|? ? F1 F2]; subst. intro H.
      destruct (hrun1 C dc sc g o) as [g'| |] eqn:E; try discriminate. cbn [obind] in H.
      destruct (F1 g p H1 HR g' E) as [(p' & E' & R')|[X E']]; rewrite E'; cbn [obind]; [|now right].
      exact (IH F2 g' p' H2 R' g1 H).
  Qed.

  Lemma sim_1 : forall o g p, hop_all ok o -> rel g p -> follows (hrun1 C dc sc g o) (hrun1 P dp sp p o).
  Proof.
    induction o as [v|v|v n|l IH] using hop_ind'; intros g p HV HR.
    - exact (Ha g p v HV HR).
    - exact (Hr g p v HV HR).
    - exact (Hp g p v n HV HR).
    - cbn [hop_all] in HV. rewrite (hop_all_go ok l) in HV. intros g1 H. cbn [hrun1] in *.
      rewrite (hruns_go C dc sc l) in H. rewrite (hruns_go P dp sp l).
      destruct (hruns C dc sc (c_init C sc) l) as [h| |] eqn:E; try discriminate.
      destruct (sim_runs l IH (c_init C sc) (c_init P sp) HV Hi h E) as [(q & E' & R')|[X E']];
        rewrite E'; cbn [obind] in *; [|now right]. exact (Hm g p h q HR R' g1 H).
  Qed.

  Theorem sim : forall l, all_values ok l -> follows (hrun C dc sc l) (hrun P dp sp l).
  Proof.
    intros l HV. apply sim_runs; [|exact HV|exact Hi].
    clear HV. induction l; constructor; [apply sim_1|assumption].
  Qed.
End Sim2.

Notation sim_of C P := (sim (value_t C) (shared_t C) (shared_t P) (group_t C) (group_t P)
  (c_init C) (c_add C) (c_rep C) (c_rem C) (c_merge C) (c_init P) (c_add P) (c_rep P) (c_rem P) (c_merge P)).
Lemma all_values_True : forall V (Q : V -> Prop) l, (forall v, Q v) -> all_values Q l.
Proof.
  intros V Q l HQ. induction l as [|o l IH]; cbn; [exact I|]. split; [|exact IH].
  clear - HQ. induction o as [v|v|v n|l IH] using hop_ind'; cbn; auto.
  induction IH; auto.
Qed.

Local Open Scope R_scope.

Lemma i32_ok : forall z w, i32 z = Ok w -> w = z.
Proof. intros z w. unfold i32. destruct (_ && _)%bool; congruence. Qed.
Ltac i32s := repeat match goal with
  | H : obind (i32 ?z) _ = Ok _ |- _ =>
      let w := fresh "w" in let E := fresh "E" in
      destruct (i32 z) as [w| |] eqn:E; cbn [obind] in H; try discriminate H; apply i32_ok in E
  end.

(** ** BetaBernoulli *)
Definition bb_rel (g : bb_group) (p : py_bb) : Prop :=
  bb_heads g = pbb_heads p /\ bb_tails g = pbb_tails p.
Lemma bb_bump_rel : forall g p v n, bb_rel g p -> follows _ _ bb_rel False (bb_bump g v n) (py_bb_bump p v n).
Proof.
  intros g p v n [H1 H2] g1 H. left. unfold bb_bump, py_bb_bump in *.
  destruct v; i32s; injection H as <-; eexists; (split; [reflexivity|]); split; cbn; lia.
Qed.
Lemma bb_sim : forall dl (sh : bb_shared R) l g, hrun (BB R) dl sh l = Ok g ->
  exists p, hrun (PyBB R) dl sh l = Ok p /\ bb_rel g p.
Proof.
  intros dl sh l g H.
  destruct (sim_of (BB R) (PyBB R) dl dl sh sh (fun _ => True) bb_rel False) with (l := l) (g := g)
    as [X|[[] _]]; try exact X; try exact H.
  - split; reflexivity.
  - intros g0 p v _. apply bb_bump_rel.
  - intros g0 p v n _. apply bb_bump_rel.
  - intros g0 p v _. apply bb_bump_rel.
  - intros g0 p g' p' [A1 A2] [B1 B2] g1 E. left. cbn in E. unfold bb_merge in E. i32s. injection E as <-.
    eexists. split; [reflexivity|]. split; cbn; lia.
  - now apply all_values_True.
Qed.
Lemma bb_sv : forall lg (sh : bb_shared R) g p v, bb_rel g p ->
  bb_score_value (N:=NumR lg) sh g v = py_bb_score_value (N:=NumR lg) sh p v.
Proof.
  intros lg sh g p v [H1 H2]. unfold bb_score_value, bb_scorer_eval, bb_scorer_init, py_bb_score_value.
  rewrite H1, H2. now destruct v.
Qed.
Lemma bb_sd : forall lg (sh : bb_shared R) g p, bb_rel g p ->
  bb_score_data (N:=NumR lg) sh g = py_bb_score_data (N:=NumR lg) sh p.
Proof.
  intros lg sh g p [H1 H2]. unfold bb_score_data, py_bb_score_data. rewrite H1, H2. cbn. lra.
Qed.

(** ** Counters of type uint32_t *)
Lemma u32_add : forall a b, u32 (u32 a + b) = u32 (a + b).
Proof. intros. unfold u32. apply Zplus_mod_idemp_l. Qed.
Lemma u32_add_r : forall a b, u32 (a + u32 b) = u32 (a + b).
Proof. intros. unfold u32. apply Zplus_mod_idemp_r. Qed.
Lemma u32_sub : forall a b, u32 (u32 a - b) = u32 (a - b).
Proof. intros. unfold u32. apply Zminus_mod_idemp_l. Qed.
Lemma u32_mul : forall a b, u32 (u32 a * b) = u32 (a * b).
Proof. intros. unfold u32. apply Zmult_mod_idemp_l. Qed.
Lemma u32_id : forall a, (0 <= a < 4294967296)%Z -> u32 a = a.
Proof. intros. unfold u32. now apply Z.mod_small. Qed.

(** ** GammaPoisson *)
Definition gp_rel (g : gp_group R) (p : py_gp R) : Prop :=
  gp_count g = u32 (pgp_count p) /\ gp_sum g = u32 (pgp_sum p) /\ gp_log_prod g = pgp_log_prod p.
Definition nonneg (v : Z) : Prop := (0 <= v)%Z.
Lemma gp_sim : forall lg dl (sh : gp_shared R) l g, all_values nonneg l -> hrun (GP R (N:=NumR lg)) dl sh l = Ok g ->
  exists p, hrun (PyGP R (N:=NumR lg)) dl sh l = Ok p /\ gp_rel g p.
Proof.
  intros lg dl sh l g HV H.
  assert (LF : forall v, nonneg v -> py_log_factorial (N:=NumR lg) v = Ok (ln_fact (Z.to_nat v))).
  { intros v Hv. unfold py_log_factorial, nonneg in *. now rewrite (proj2 (Z.ltb_ge v 0)) by lia. }
  destruct (sim_of (GP R (N:=NumR lg)) (PyGP R (N:=NumR lg)) dl dl sh sh nonneg gp_rel False) with (l := l) (g := g)
    as [X|[[] _]]; try exact X; try exact H; try exact HV.
  - repeat split; reflexivity.
  - intros g0 p v Hv (A & B & D) g1 E. left. cbn in E |- *. rewrite LF by exact Hv. cbn.
    eexists; split; [reflexivity|]. injection E as <-. unfold gp_rel; cbn. rewrite A, B, D, !u32_add. auto.
  - intros g0 p v n Hv (A & B & D) g1 E. left. cbn in E |- *. rewrite LF by exact Hv. cbn.
    eexists; split; [reflexivity|]. injection E as <-. unfold gp_rel; cbn.
    rewrite A, B, D, u32_add_r, !u32_add, <- (u32_add_r _ (u32 n * v)), u32_mul, u32_add_r. auto.
  - intros g0 p v Hv (A & B & D) g1 E. left. cbn in E |- *. rewrite LF by exact Hv. cbn.
    eexists; split; [reflexivity|]. injection E as <-. unfold gp_rel; cbn. rewrite A, B, D, !u32_sub. auto.
  - intros g0 p g' p' (A & B & D) (A' & B' & D') g1 E. left. cbn in E |- *.
    eexists; split; [reflexivity|]. injection E as <-. unfold gp_rel; cbn.
    rewrite A, B, D, A', B', D', !u32_add, !u32_add_r. auto.
Qed.
Lemma gp_sv : forall lg (sh : gp_shared R) g p v, gp_rel g p -> nonneg v ->
  (0 <= pgp_count p < 4294967296)%Z -> (0 <= pgp_sum p < 4294967296)%Z ->
  py_gp_score_value (N:=NumR lg) sh p v = Ok (gp_score_value (N:=NumR lg) sh g v).
Proof.
  intros lg sh g p v (A & B & D) Hv H1 H2. unfold py_gp_score_value, py_log_factorial, nonneg in *.
  rewrite (proj2 (Z.ltb_ge v 0)) by lia. cbn [obind]. f_equal.
  unfold gp_score_value, gp_scorer_eval, gp_scorer_init, gp_plus_group, py_gp_plus_group.
  rewrite A, B, !u32_id by assumption. cbn. lra.
Qed.
Lemma gp_sd : forall lg (sh : gp_shared R) g p, gp_rel g p ->
  (0 <= pgp_count p < 4294967296)%Z -> (0 <= pgp_sum p < 4294967296)%Z ->
  gp_score_data (N:=NumR lg) sh g = py_gp_score_data (N:=NumR lg) sh p.
Proof.
  intros lg sh g p (A & B & D) H1 H2.
  unfold gp_score_data, py_gp_score_data, gp_plus_group, py_gp_plus_group.
  rewrite A, B, D, !u32_id by assumption. cbn. lra.
Qed.

(** ** BetaNegativeBinomial *)
Definition bnb_rel (g : bnb_group) (p : py_bnb) : Prop :=
  bnb_count g = u32 (pbn_count p) /\ bnb_sum g = u32 (pbn_sum p).
Lemma bnb_sim : forall dl (sh : bnb_shared R) l g, hrun (BNB R) dl sh l = Ok g ->
  exists p, hrun (PyBNB R) dl sh l = Ok p /\ bnb_rel g p.
Proof.
  intros dl sh l g H.
  destruct (sim_of (BNB R) (PyBNB R) dl dl sh sh (fun _ => True) bnb_rel False) with (l := l) (g := g)
    as [X|[[] _]]; try exact X; try exact H.
  - repeat split; reflexivity.
  - intros g0 p v Hv (A & B) g1 E. left. cbn in E |- *.
    eexists; split; [reflexivity|]. injection E as <-. unfold bnb_rel; cbn. rewrite A, B, !u32_add. auto.
  - intros g0 p v n Hv (A & B) g1 E. left. cbn in E |- *.
    eexists; split; [reflexivity|]. injection E as <-. unfold bnb_rel; cbn.
    rewrite A, B, u32_add_r, !u32_add, <- (u32_add_r _ (u32 n * v)), u32_mul, u32_add_r. auto.
  - intros g0 p v Hv (A & B) g1 E. left. cbn in E |- *.
    eexists; split; [reflexivity|]. injection E as <-. unfold bnb_rel; cbn. rewrite A, B, !u32_sub. auto.
  - intros g0 p g' p' (A & B) (A' & B') g1 E. left. cbn in E |- *.
    eexists; split; [reflexivity|]. injection E as <-. unfold bnb_rel; cbn.
    rewrite A, B, A', B', !u32_add, !u32_add_r. auto.
  - now apply all_values_True.
Qed.
Lemma bnb_sv : forall lg (sh : bnb_shared R) g p v, bnb_rel g p ->
  (0 <= pbn_count p < 4294967296)%Z -> (0 <= pbn_sum p < 4294967296)%Z ->
  bnb_score_value (N:=NumR lg) sh g v = py_bnb_score_value (N:=NumR lg) sh p v.
Proof.
  intros lg sh g p v (A & B) H1 H2.
  unfold bnb_score_value, py_bnb_score_value, bnb_plus_group, py_bnb_plus_group.
  rewrite A, B, !u32_id by assumption. cbn. rewrite mult_IZR. lra.
Qed.
Lemma bnb_sd : forall lg (sh : bnb_shared R) g p, bnb_rel g p ->
  (0 <= pbn_count p < 4294967296)%Z -> (0 <= pbn_sum p < 4294967296)%Z ->
  bnb_score_data (N:=NumR lg) sh g = py_bnb_score_data (N:=NumR lg) sh p.
Proof.
  intros lg sh g p (A & B) H1 H2.
  unfold bnb_score_data, py_bnb_score_data, bnb_plus_group, py_bnb_plus_group.
  rewrite A, B, !u32_id by assumption. cbn. rewrite mult_IZR. lra.
Qed.

(** ** NormalInverseChiSq *)
Definition nich_rel (g : nich_group R) (p : py_nich R) : Prop :=
  ni_count g = pni_count p /\ ni_mean g = pni_mean p /\ ni_ctv g = pni_ctv p.
Lemma py_div_case : forall lg x n, py_div (N:=NumR lg) x n = Ok (x / IZR n) \/ py_div (N:=NumR lg) x n = Fail.
Proof. intros. unfold py_div. destruct (n =? 0)%Z; auto. Qed.
Lemma nich_sim : forall lg dl (sh : nich_shared R) l g, hrun (NICH R (N:=NumR lg)) dl sh l = Ok g ->
  (exists p, hrun (PyNICH R (N:=NumR lg)) dl sh l = Ok p /\ nich_rel g p) \/
  hrun (PyNICH R (N:=NumR lg)) dl sh l = Fail.
Proof.
  intros lg dl sh l g H.
  destruct (sim_of (NICH R (N:=NumR lg)) (PyNICH R (N:=NumR lg)) dl dl sh sh (fun _ => True) nich_rel True) with (l := l) (g := g)
    as [X|[_ X]]; try (left; exact X); try (right; exact X); try exact H.
  - repeat split; reflexivity.
  - intros g0 p v _ (A & B & D) g1 E. cbn in E |- *. unfold nich_add, py_nich_add in *.
    i32s. cbn [nsub nmul nof NumR] in *.
    destruct (py_div_case lg (v - pni_mean p) (pni_count p + 1)) as [Q|Q]; rewrite Q; cbn [obind];
      [left|right; auto].
    eexists; split; [reflexivity|]. injection E as <-. unfold nich_rel; cbn. subst w. now rewrite A, B, D.
  - intros g0 p v n _ (A & B & D) g1 E. cbn in E |- *. unfold nich_rep, py_nich_rep in *. i32s.
    cbn [nsub nmul nof NumR] in *.
    destruct (py_div_case lg (IZR n * v - pni_mean p) (pni_count p + n)) as [Q|Q]; rewrite Q; cbn [obind];
      [left|right; auto].
    eexists; split; [reflexivity|]. injection E as <-. unfold nich_rel; cbn. subst w. now rewrite A, B, D.
  - intros g0 p v _ (A & B & D) g1 E. left. cbn in E |- *. unfold nich_rem, py_nich_rem in *.
    destruct (dassert (0 <? ni_count g0)%Z); try discriminate. cbn [obind] in E. i32s.
    eexists; split; [reflexivity|]. injection E as <-. unfold nich_rel; cbn. subst w. now rewrite A, B, D.
  - intros g0 p g' p' (A & B & D) (A' & B' & D') g1 E. cbn in E |- *. unfold nich_merge, py_nich_merge in *. i32s.
    cbn [nsub nmul nof NumR] in *.
    destruct (py_div_case lg (IZR (pni_count p')) (pni_count p + pni_count p')) as [Q|Q]; rewrite Q; cbn [obind];
      [left|right; auto].
    eexists; split; [reflexivity|]. injection E as <-. unfold nich_rel; cbn. subst w.
    rewrite A, B, D, A', B', D'. repeat split. unfold sqr; cbn. lra.
  - now apply all_values_True.
Qed.
Lemma nich_post : forall lg (sh : nich_shared R) g p, nich_rel g p ->
  nich_plus_group (N:=NumR lg) sh g = py_nich_plus_group (N:=NumR lg) sh p.
Proof.
  intros lg sh g p (A & B & D). unfold nich_plus_group, py_nich_plus_group. now rewrite A, B, D.
Qed.
Lemma nich_sd : forall lg (sh : nich_shared R) g p, nich_rel g p ->
  nich_score_data (N:=NumR lg) sh g = py_nich_score_data (N:=NumR lg) sh p.
Proof.
  intros lg sh g p H. unfold nich_score_data, py_nich_score_data. rewrite (nich_post lg sh g p H).
  destruct H as (A & _ & _). rewrite A. set (post := py_nich_plus_group sh p). clearbody post.
  unfold half, log_pi_lit. cbn.
  replace (1 / 2 * ni_nu post) with (ni_nu post / 2) by lra.
  replace (1 / 2 * ni_nu sh) with (ni_nu sh / 2) by lra. lra.
Qed.
Lemma nich_sv : forall lg (sh : nich_shared R) g p v, nich_rel g p ->
  let post := nich_plus_group (N:=NumR lg) sh g in
  0 < ni_kappa post -> 0 < ni_nu post -> 0 < ni_sigmasq post ->
  nich_score_value (N:=NumR lg) sh g v =
    py_nich_score_value (N:=NumR lg) PI sh p v + / 2 * (ln PI - ln (314159265358979 / 100000000000000)) /\
  hp_nich_score_value (N:=NumR lg) PI sh p v = py_nich_score_value (N:=NumR lg) PI sh p v.
Proof.
  intros lg sh g p v H post Hk Hn Hs.
  unfold py_nich_score_value, hp_nich_score_value. rewrite <- (nich_post lg sh g p H). fold post.
  split.
  - unfold nich_score_value, nich_scorer_eval, nich_scorer_init. fold post.
    destruct post as [mu kappa sig nu]. cbn in *. unfold py_student_t, half, m_pif, sqr. cbn.
    set (m := 314159265358979 / 100000000000000).
    assert (Hm : 0 < m) by (unfold m; lra). assert (HP := PI_RGT_0).
    set (q := (1 + kappa) * sig / kappa).
    assert (Hq : 0 < q) by (unfold q; apply Rdiv_lt_0_compat; [apply Rmult_lt_0_compat|]; lra).
    replace (kappa / ((kappa + 1 / 1) * sig)) with (/ q) by (unfold q; field; lra).
    replace (/ q / (m * nu)) with (/ (nu * PI * q) * (PI / m)) by (field; repeat split; lra).
    assert (H1 : 0 < nu * PI * q) by (apply Rmult_lt_0_compat; [apply Rmult_lt_0_compat; lra|exact Hq]).
    rewrite ln_mult by (try apply Rinv_0_lt_compat; try apply Rdiv_lt_0_compat; lra).
    rewrite ln_Rinv by exact H1.
    replace (ln (PI / m)) with (ln PI - ln m) by (unfold Rdiv; rewrite ln_mult by (try apply Rinv_0_lt_compat; lra); rewrite ln_Rinv by lra; lra).
    replace (/ q / nu * ((v - mu) * (v - mu))) with ((v - mu) * (v - mu) / q / nu) by (field; lra).
    replace (1 / 2 * (nu + 1 / 1)) with (nu / 2 + / 2) by lra.
    replace (1 / 2 * nu) with (nu / 2) by lra.
    lra.
  - unfold hp_student_t, py_student_t. cbn. lra.
Qed.

(** ** Python's divisions in NormalInverseChiSq *)
Lemma py_nich_ops : forall lg dl (sh : nich_shared R) l,
  List.Forall (fun o => forall p, hop_nonempty (pni_count p) o ->
    exists p', hrun1 (PyNICH R (N:=NumR lg)) dl sh p o = Ok p' /\ pni_count p' = (pni_count p + hop_size o)%Z) l ->
  forall p, never_empty (pni_count p) l ->
    exists p', hruns (PyNICH R (N:=NumR lg)) dl sh p l = Ok p' /\ pni_count p' = (pni_count p + history_size l)%Z.
Proof.
  intros lg dl sh l HF. induction HF as [|o l H1 HF IH]; intros p HN; cbn [hruns history_size] in *.
  - exists p. split; [reflexivity|lia].
  - destruct HN as [N1 N2]. destruct (H1 p N1) as (p1 & -> & E1). cbn [obind]. rewrite <- E1 in N2.
    destruct (IH p1 N2) as (p2 & -> & E2). exists p2. split; [reflexivity|lia].
Qed.
Lemma py_div_ok : forall lg x n, n <> 0%Z -> py_div (N:=NumR lg) x n = Ok (x / IZR n).
Proof. intros lg x n H. unfold py_div. now rewrite (proj2 (Z.eqb_neq n 0) H). Qed.
Lemma history_size_go : forall V (l : list (hop V)),
  (fix sum l := match l with [] => 0 | o :: t => hop_size o + sum t end)%Z l = history_size l.
Proof. induction l as [|o l IH]; cbn; [reflexivity|]. now rewrite IH. Qed.
Lemma never_empty_go : forall V (l : list (hop V)) n,
  (fix all n l := match l with [] => True | o :: t => hop_nonempty n o /\ all (n + hop_size o)%Z t end) n l = never_empty n l.
Proof. induction l as [|o l IH]; intro n; cbn; [reflexivity|]. now rewrite IH. Qed.
Lemma py_nich_op : forall lg dl (sh : nich_shared R) o p, hop_nonempty (pni_count p) o ->
  exists p', hrun1 (PyNICH R (N:=NumR lg)) dl sh p o = Ok p' /\ pni_count p' = (pni_count p + hop_size o)%Z.
Proof.
  intros lg dl sh. induction o as [v|v|v n|l IH] using hop_ind'; intros p HN.
  - cbn in *. unfold py_nich_add. cbn [nsub NumR]. rewrite py_div_ok by exact HN. cbn [obind]. eexists. split; reflexivity.
  - cbn in *. eexists. split; reflexivity.
  - cbn in *. unfold py_nich_rep. cbn [nsub nmul nof NumR]. rewrite py_div_ok by exact HN. cbn [obind]. eexists. split; reflexivity.
  - cbn [hop_nonempty hrun1 hop_size] in *. destruct HN as [N1 N2]. rewrite never_empty_go in N1. rewrite history_size_go in *.
    rewrite (hruns_go (PyNICH R (N:=NumR lg)) dl sh l).
    destruct (py_nich_ops lg dl sh l IH (c_init (PyNICH R (N:=NumR lg)) sh) N1) as (h & -> & E). cbn in E. cbn [obind].
    cbn. unfold py_nich_merge. rewrite E. cbn [nof NumR]. rewrite py_div_ok by exact N2. cbn [obind]. eexists. split; reflexivity.
Qed.
Lemma py_nich_runs : forall lg dl (sh : nich_shared R) l, never_empty 0 l ->
  exists p, hrun (PyNICH R (N:=NumR lg)) dl sh l = Ok p /\ pni_count p = history_size l.
Proof.
  intros lg dl sh l HN. apply (py_nich_ops lg dl sh l).
  - clear HN. induction l; constructor; [apply py_nich_op|assumption].
  - exact HN.
Qed.
