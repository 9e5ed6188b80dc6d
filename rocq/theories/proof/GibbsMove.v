(** The law of a Gibbs move, its reversibility and its stationary measure. *)
From Coq Require Import Permutation Reals Lra.
From Verif.spec Require Import DriverSpec TrackerSpec GroupSpec SlaveSpec PartitionSpec LgammaSpec RandomSpec SystemSpec GibbsSpec.
From Verif.model Require Import Base Packed Num NumR Driver PitmanYor IdTracker Component Slave
  Random System Gibbs.
From Verif.proof Require Import BaseProof LoopProof DriverProof PitmanYorProof PitmanYorR LgammaProof RandomProof.
From stdpp Require Import gmap.
From Verif.proof Require Import FeatureProof SystemProof ClientProof GibbsClusters GibbsProof.
Local Open Scope Z_scope.

Section M.
  Context {W : Type} (lg : R -> R) (Hlg : lgamma_like lg) (dl : nat).
  #[local] Hint Extern 0 (Num R) => exact (NumR lg) : typeclass_instances.
  Variable data : list W.
  Hypothesis Hlen : Z.of_nat (length data) < 2 ^ 31.
  Variables (m : py R) (ks : list (kind W)).
  Hypothesis Hm : py_ok m.
  Hypothesis Hks : List.Forall (good_kind data) ks.
  Notation feats := (map (feature_of lg) ks).
  Notation cinv' := (cinv (N:=NumR lg) dl (ok data) m feats data).
  Notation Jrows := (Jrows lg m ks).
  Notation Zf := (Zf lg m ks).
  Notation qscore := (qscore lg m ks).
  Notation G0 := (G0 ks).
  Notation seat c i p := (client_run1 dl m data c (Seat i (fun _ => p))).
  Notation joint' s J := (joint lg dl m ks s J).
  Notation move c i a' pr := (move_prob lg dl m data c i a' pr).

  Lemma unseat_run c L n seated i : cinv' c L n seated -> In i seated ->
    exists c0 L0 seated0 w, nth_error data i = Some w /\ client_run1 dl m data c (Unseat i) = Ok c0 /\ cinv' c0 L0 n seated0 /\
      ~ In i seated0 /\ cl_assign c0 = delete i (cl_assign c).
  Proof.
    intros H Hi. destruct (nth_error data i) as [w|] eqn:Hw; [|apply nth_error_None in Hw; pose proof (ci_range _ _ _ _ _ _ _ _ _ H i Hi); lia].
    apply in_split in Hi as (a & b & ->).
    destruct (unseat_ok dl (ok data) m feats data c L n a i b w H Hw) as (c0 & L0 & E & I).
    exists c0, L0, (a ++ b), w. split; [reflexivity|]. split; [exact E|]. split; [exact I|]. split.
    - exact (List.NoDup_remove_2 _ _ _ (ci_nodup _ _ _ _ _ _ _ _ _ H)).
    - cbn [client_run1] in E. unfold vget in E. rewrite Hw in E. cbn [obind] in E. unfold client_unseat in E.
      destruct (cl_assign c !! i) as [g|]; [|discriminate].
      destruct (global_to_packed dl (sy_track (cl_sys c)) g) as [p| |]; try discriminate. cbn [obind] in E.
      destruct (sys_remove_value dl m (cl_sys c) (Z.to_nat p) w) as [s| |]; try discriminate. cbn [obind] in E. now injection E as <-.
  Qed.
  Lemma has_empty c L n seated : cinv' c L n seated -> In [] (map snd L).
  Proof.
    intro H. pose proof (ci_sys _ _ _ _ _ _ _ _ _ H) as Hsy. pose proof (si_counts _ _ _ _ _ _ _ Hsy) as Hc.
    assert (Hz : In 0 (map csize L)) by (rewrite <- Hc; apply (pi_d _ _ (si_py _ _ _ _ _ _ _ Hsy))).
    apply in_map_iff in Hz as ([g xs] & E & Hz). unfold csize in E. cbn [snd] in E. destruct xs; [|cbn [length] in E; lia].
    apply in_map_iff. exists (g, []). auto.
  Qed.
  Lemma Zf_pos D w : (0 < Zf D w)%R.
  Proof.
    unfold GibbsProof.Zf. apply Rplus_le_lt_0_compat; [|apply exp_pos].
    induction D as [|x D IH]; cbn [map rsum]; [lra|]. match goal with |- (0 <= ?a + rsum ?b)%R => assert (0 <= rsum b)%R; [|pose proof (exp_pos (Msum lg ks (w :: x) - Msum lg ks x + py_more m (length x) (length (concat (x :: D)))))%R; lra] end.
    clear. generalize (length (concat (x :: D))). intro N. induction D as [|y D IH]; cbn [map rsum]; [lra|].
    match goal with |- (0 <= exp ?a + _)%R => pose proof (exp_pos a); lra end.
  Qed.
  Lemma rsum_scal {A} (f : A -> R) k l : rsum (map (fun x => f x * k)%R l) = (rsum (map f l) * k)%R.
  Proof. induction l as [|x l IH]; cbn [map rsum]; [lra|]. rewrite IH. lra. Qed.

  Lemma move_law c L n seated i c' L' n' seated' : cinv' c L n seated -> In i seated -> n + 1 <= 2 ^ 32 ->
    cinv' c' L' n' seated' -> In i seated' -> agree_off i (cl_assign c) (cl_assign c') ->
    exists c0 L0 seated0 w, nth_error data i = Some w /\ cinv' c0 L0 n seated0 /\ cl_assign c0 = delete i (cl_assign c) /\
      forall pr, move c i (cl_assign c') pr <-> pr = (exp (Jrows (map snd L')) / (exp (Jrows (map snd L0)) * Zf (full (map snd L0)) w))%R.
  Proof.
    intros H Hi Hn H' Hi' Ha. destruct (unseat_run c L n seated i H Hi) as (c0 & L0 & seated0 & w & Hw & E0 & I0 & Ni & Ea).
    exists c0, L0, seated0, w. split; [exact Hw|]. split; [exact I0|]. split; [exact Ea|].
    unfold agree_off in Ha. rewrite <- Ea in Ha.
    destruct (hit_set lg Hlg dl data Hlen m ks Hm Hks c0 L0 n seated0 i w c' L' n' seated' I0 Hw Ni Hn H' Hi' Ha) as (h & Nd & Hh & Sh).
    pose proof (scores_eq lg Hlg dl data Hlen m ks Hm Hks c0 L0 n seated0 i w I0 Hw Ni) as Es.
    set (D := map snd L0) in *. set (sc := map (qscore D w) D) in *.
    assert (Hne : sc <> []). { pose proof (has_empty _ _ _ _ I0) as X. fold D in X. unfold sc. destruct D; [destruct X|discriminate]. }
    pose proof (scores_to_probs_ok lg sc Hne) as Ep.
    assert (Ll : length sc = length L0) by (unfold sc, D; now rewrite !map_length).
    assert (ES : rsum (map exp sc) = (exp G0 * Zf (full D) w)%R) by (apply (sum_scores lg data m ks Hks), (has_empty _ _ _ _ I0)).
    pose proof (Zf_pos (full D) w) as Zp. pose proof (exp_pos G0) as Gp. pose proof (exp_pos (Jrows D)) as Jp.
    assert (V : rsum (map (fun p => nth p (map (fun s => exp (s - log_normaliser sc))%R sc) 0%R) h) =
      (exp (Jrows (map snd L')) / (exp (Jrows D) * Zf (full D) w))%R).
    { rewrite (map_ext_in _ (fun p => (exp (nth p sc 0%R) * / (exp G0 * Zf (full D) w))%R)).
      - rewrite rsum_scal. rewrite Sh. unfold Rminus. rewrite !exp_plus, exp_Ropp. field. repeat split; lra.
      - intros p Hp. apply Hh in Hp as [Hp _]. rewrite (nth_indep _ 0%R ((fun s => exp (s - log_normaliser sc))%R 0%R)) by (rewrite map_length; lia).
        rewrite (map_nth (fun s => exp (s - log_normaliser sc))%R). unfold Rminus, log_normaliser. rewrite exp_plus, exp_Ropp, exp_ln; rewrite ES; [reflexivity|nra]. }
    intro pr. split.
    - intros (c0' & w' & sc' & ps & hits & A & B & C & Dp & N' & Hh' & ->).
      rewrite E0 in A. injection A as <-. rewrite Hw in B. injection B as <-.
      pose proof (eq_trans (eq_sym Es) C) as X. injection X as <-. pose proof (eq_trans (eq_sym Ep) Dp) as X. injection X as <-.
      rewrite <- V. apply PitmanYorR.rsum_perm, Permutation_map, Permutation.NoDup_Permutation; [exact N'|exact Nd|].
      intro p. rewrite Hh', Hh. now rewrite Ll.
    - intros ->. exists c0, w, sc, (map (fun s => exp (s - log_normaliser sc))%R sc), h. split; [exact E0|]. split; [exact Hw|]. split; [exact Es|]. split; [exact Ep|].
      split; [exact Nd|]. split; [|now rewrite V]. intro p. rewrite Hh. now rewrite Ll.
  Qed.

  (** The joint score of a state is a function of the rows its groups hold. *)
  Lemma joint_iff c L n seated J : cinv' c L n seated -> joint' (cl_sys c) J <-> J = Jrows (map snd L).
  Proof.
    intro H. pose proof (ci_sys _ _ _ _ _ _ _ _ _ H) as Hs. pose proof (groups_within lg dl data m ks c L n seated H) as Hw. split.
    - now apply (joint_unique lg Hlg dl data Hlen m ks Hm Hks _ _ _ _ Hs Hw).
    - intros ->. now apply (joint_rows lg Hlg dl data Hlen m ks Hm Hks _ _ _ Hs Hw).
  Qed.
  Lemma seated_in c L n seated i : cinv' c L n seated -> cl_assign c !! i <> None -> In i seated.
  Proof. intros H Hi. apply (ci_seated _ _ _ _ _ _ _ _ _ H). destruct (cl_assign c !! i); [eauto|congruence]. Qed.

  Lemma move_pos c L n seated i c' L' n' seated' pr : cinv' c L n seated -> In i seated -> n + 1 <= 2 ^ 32 ->
    cinv' c' L' n' seated' -> In i seated' -> agree_off i (cl_assign c) (cl_assign c') -> move c i (cl_assign c') pr -> (0 < pr)%R.
  Proof.
    intros H Hi Hn H' Hi' Ha Hp. destruct (move_law c L n seated i c' L' n' seated' H Hi Hn H' Hi' Ha) as (c0 & L0 & s0 & w & _ & _ & _ & Iff).
    apply Iff in Hp as ->. pose proof (Zf_pos (full (map snd L0)) w). pose proof (exp_pos (Jrows (map snd L0))). pose proof (exp_pos (Jrows (map snd L'))).
    apply Rdiv_lt_0_compat; [assumption|]. now apply Rmult_lt_0_compat.
  Qed.
  Lemma balance c L n seated i c' L' n' seated' J J' pr pr' : cinv' c L n seated -> In i seated -> n + 1 <= 2 ^ 32 ->
    cinv' c' L' n' seated' -> In i seated' -> n' + 1 <= 2 ^ 32 -> agree_off i (cl_assign c) (cl_assign c') ->
    joint' (cl_sys c) J -> joint' (cl_sys c') J' -> move c i (cl_assign c') pr -> move c' i (cl_assign c) pr' ->
    (exp J * pr = exp J' * pr')%R.
  Proof.
    intros H Hi Hn H' Hi' Hn' Ha HJ HJ' Hp Hp'. apply (joint_iff _ _ _ _ _ H) in HJ as ->. apply (joint_iff _ _ _ _ _ H') in HJ' as ->.
    destruct (move_law c L n seated i c' L' n' seated' H Hi Hn H' Hi' Ha) as (c0 & L0 & s0 & w & Hw & I0 & E0 & Iff).
    destruct (move_law c' L' n' seated' i c L n seated H' Hi' Hn' H Hi (same_sym _ _ Ha)) as (c0' & L0' & s0' & w' & Hw' & I0' & E0' & Iff').
    rewrite Hw in Hw'. injection Hw' as <-. apply Iff in Hp as ->. apply Iff' in Hp' as ->.
    unfold agree_off in Ha. rewrite <- E0, <- E0' in Ha.
    rewrite (J_clusters lg dl data m ks Hks _ _ _ _ _ _ _ _ I0 I0' Ha), (Z_clusters lg dl data m ks _ _ _ _ _ _ _ _ w I0 I0' Ha). unfold Rdiv. ring.
  Qed.
  Lemma conditional c L n seated i c1 L1 n1 seated1 c2 L2 n2 seated2 J1 J2 pr1 pr2 : cinv' c L n seated -> In i seated -> n + 1 <= 2 ^ 32 ->
    cinv' c1 L1 n1 seated1 -> In i seated1 -> agree_off i (cl_assign c) (cl_assign c1) ->
    cinv' c2 L2 n2 seated2 -> In i seated2 -> agree_off i (cl_assign c) (cl_assign c2) ->
    joint' (cl_sys c1) J1 -> joint' (cl_sys c2) J2 -> move c i (cl_assign c1) pr1 -> move c i (cl_assign c2) pr2 ->
    (pr1 * exp J2 = pr2 * exp J1)%R.
  Proof.
    intros H Hi Hn H1 Hi1 A1 H2 Hi2 A2 HJ1 HJ2 Hp1 Hp2. apply (joint_iff _ _ _ _ _ H1) in HJ1 as ->. apply (joint_iff _ _ _ _ _ H2) in HJ2 as ->.
    destruct (move_law c L n seated i c1 L1 n1 seated1 H Hi Hn H1 Hi1 A1) as (c0 & L0 & s0 & w & Hw & I0 & E0 & Iff).
    destruct (move_law c L n seated i c2 L2 n2 seated2 H Hi Hn H2 Hi2 A2) as (c0' & L0' & s0' & w' & Hw' & I0' & E0' & Iff').
    rewrite Hw in Hw'. injection Hw' as <-. apply Iff in Hp1 as ->. apply Iff' in Hp2 as ->.
    assert (S : same_clusters (cl_assign c0) (cl_assign c0')) by (rewrite E0, E0'; apply same_refl).
    rewrite (J_clusters lg dl data m ks Hks _ _ _ _ _ _ _ _ I0 I0' S), (Z_clusters lg dl data m ks _ _ _ _ _ _ _ _ w I0 I0' S). unfold Rdiv. ring.
  Qed.

  (** The scores are increments of the joint score. *)
  Lemma num_empties (L : list (Z * list W)) : num_empty (map csize L) = (length (map snd L) - length (full (map snd L)))%nat.
  Proof. pose proof (count_empty data L). rewrite map_length. lia. Qed.
  Lemma increments c L n seated i w p c1 J J1 : cinv' c L n seated -> nth_error data i = Some w -> ~ In i seated -> n + 1 <= 2 ^ 32 ->
    (p < length L)%nat -> seat c i p = Ok c1 -> joint' (cl_sys c) J -> joint' (cl_sys c1) J1 ->
    nth_error (map (qscore (map snd L) w) (map snd L)) p = Some (J1 - J + G0 -
      (if (nth p (counts (cdriver (sy_py (cl_sys c)))) 1%Z =? 0)%Z then ln (INR (num_empty (counts (cdriver (sy_py (cl_sys c)))))) else 0))%R.
  Proof.
    intros H Hw Hi Hn Hp E HJ HJ1. destruct (nth_error L p) as [[g xs]|] eqn:Ep; [|apply nth_error_None in Ep; lia].
    apply nth_error_split in Ep as (L1 & L2 & -> & <-).
    destruct (seat_result lg Hlg dl data Hlen m ks Hm Hks c L1 g xs L2 n seated i w H Hw Hi Hn) as (c1' & L2' & n1 & E1 & _ & I1 & _ & Jr).
    rewrite E1 in E. injection E as <-. apply (joint_iff _ _ _ _ _ H) in HJ as ->. apply (joint_iff _ _ _ _ _ I1) in HJ1 as ->.
    rewrite (si_counts _ _ _ _ _ _ _ (ci_sys _ _ _ _ _ _ _ _ _ H)), num_empties, Jr.
    rewrite map_app. cbn [map snd]. rewrite nth_error_map, <- (map_length snd L1), nth_error_app2, Nat.sub_diag by lia. cbn [nth_error option_map].
    rewrite (q_joint lg data m ks Hm). f_equal. f_equal.
    rewrite map_app. cbn [map]. rewrite map_length, <- (map_length csize L1), nth_middle. unfold csize. cbn [snd].
    destruct xs as [|x xs]; cbn [length]; [reflexivity|]. destruct (Z.eqb_spec (Z.of_nat (S (length xs))) 0); [lia|reflexivity].
  Qed.
  Lemma joint_exists c L n seated : cinv' c L n seated -> exists J, joint' (cl_sys c) J.
  Proof. intro H. exists (Jrows (map snd L)). now apply (joint_iff _ _ _ _ _ H). Qed.

  Definition pick_at (p : nat) (sc : list R) : nat := Nat.min p (pred (length sc)).
  Lemma pick_at_ok p sc : sc <> [] -> (pick_at p sc < length sc)%nat.
  Proof. intro H. unfold pick_at. destruct sc; [congruence|cbn [length pred]; lia]. Qed.
  Lemma seat_pick c L n seated i w p : cinv' c L n seated -> nth_error data i = Some w -> ~ In i seated -> (p < length L)%nat ->
    client_run1 dl m data c (Seat i (pick_at p)) = seat c i p.
  Proof.
    intros H Hw Hi Hp. cbn [client_run1]. unfold vget. rewrite Hw. cbn [obind]. unfold client_seat.
    rewrite (scores_eq lg Hlg dl data Hlen m ks Hm Hks c L n seated i w H Hw Hi). cbn [obind].
    replace (pick_at p (map (qscore (map snd L) w) (map snd L))) with p by (unfold pick_at; rewrite !map_length; lia). reflexivity.
  Qed.

  (** The outcomes of a move: one clustering for each occupied group, one for a new group. *)
  Notation Msum := (Msum lg ks).
  Definition outcome_of c0 (l : nat) (n : Z) seated i (g : Z) (c1 : client W R) : Prop :=
    exists p L1 n1, (p < l)%nat /\ seat c0 i p = Ok c1 /\ cl_assign c1 = <[i := g]> (cl_assign c0) /\ cinv' c1 L1 n1 (i :: seated) /\ n1 <= n + 1.
  Lemma outcomes c0 L n seated i w : cinv' c0 L n seated -> nth_error data i = Some w -> ~ In i seated -> n + 1 <= 2 ^ 32 ->
    forall L2 L1, L = L1 ++ L2 -> exists gcs, List.Forall (fun gc => outcome_of c0 (length L) n seated i (fst gc) (snd gc)) gcs /\
      map fst gcs = map fst (List.filter (fun y => negb (length (snd y) =? 0)%nat) L2) /\
      forall Js, List.Forall2 (fun gc J => joint' (cl_sys (snd gc)) J) gcs Js ->
        rsum (map exp Js) = (exp (Jrows (map snd L)) * rsum (map (fun xs => exp (Msum (w :: xs) - Msum xs + py_more m (length xs) (length (concat (map snd L))))) (full (map snd L2))))%R.
  Proof.
    intros H Hw Hi Hn. induction L2 as [|[g xs] L2 IH]; intros L1 EL.
    - exists []. split; [constructor|]. split; [reflexivity|]. intros Js F. inversion F; subst. cbn [map rsum full List.filter]. lra.
    - destruct (IH (L1 ++ [(g, xs)])) as (gcs & F & Ef & Hs). { rewrite EL, <- app_assoc. reflexivity. }
      destruct xs as [|x xs].
      + exists gcs. split; [exact F|]. split; [exact Ef|]. exact Hs.
      + pose proof H as Hc. rewrite EL in Hc.
        destruct (seat_result lg Hlg dl data Hlen m ks Hm Hks c0 L1 g (x :: xs) L2 n seated i w Hc Hw Hi Hn) as (c1 & L2' & n1 & E1 & Ea & I1 & B1 & Jr).
        exists ((g, c1) :: gcs). split; [|split].
        * constructor; [|exact F]. exists (length L1), (L1 ++ (g, w :: x :: xs) :: L2'), n1. cbn [fst snd]. split; [rewrite EL, app_length; cbn [length]; lia|auto].
        * cbn [map List.filter snd length Nat.eqb negb fst]. now rewrite Ef.
        * intros Js FJ. inversion FJ as [|? J ? Js' HJ FJ']; subst. cbn [snd] in HJ. apply (joint_iff _ _ _ _ _ I1) in HJ as ->.
          change (full (map snd ((g, x :: xs) :: L2))) with ((x :: xs) :: full (map snd L2)). cbn [map rsum]. rewrite (Hs _ FJ'), Jr, (Jrows_add lg data m ks Hm).
          rewrite Rmult_plus_distr_l. f_equal. rewrite map_app. cbn [map snd]. rewrite <- exp_plus. f_equal. lra.
  Qed.
  Lemma new_outcome c0 L n seated i w : cinv' c0 L n seated -> nth_error data i = Some w -> ~ In i seated -> n + 1 <= 2 ^ 32 ->
    exists g c1, outcome_of c0 (length L) n seated i g c1 /\ In (g, []) L /\
      forall J, joint' (cl_sys c1) J -> exp J = (exp (Jrows (map snd L)) * exp (Msum [w] + py_new m (length (full (map snd L))) (length (concat (map snd L)))))%R.
  Proof.
    intros H Hw Hi Hn. pose proof (has_empty _ _ _ _ H) as Hz. apply in_map_iff in Hz as ([g xs] & E & Hz). cbn [snd] in E. subst xs.
    pose proof Hz as Hz'. apply in_split in Hz as (L1 & L2 & EL). pose proof H as Hc. rewrite EL in Hc.
    destruct (seat_result lg Hlg dl data Hlen m ks Hm Hks c0 L1 g [] L2 n seated i w Hc Hw Hi Hn) as (c1 & L2' & n1 & E1 & Ea & I1 & B1 & Jr).
    exists g, c1. split; [exists (length L1), (L1 ++ (g, [w]) :: L2'), n1; split; [rewrite EL, app_length; cbn [length]; lia|auto]|]. split; [exact Hz'|]. intros J HJ.
    apply (joint_iff _ _ _ _ _ I1) in HJ as ->. rewrite Jr, (Jrows_add lg data m ks Hm), EL, map_app. cbn [map snd].
    assert (E : full (map snd L1 ++ [] :: map snd L2) = full (map snd L1 ++ map snd L2)) by (unfold full; now rewrite !List.filter_app).
    assert (E' : length (concat (map snd L1 ++ [] :: map snd L2)) = length (concat (map snd L1 ++ map snd L2))) by now rewrite !concat_app.
    rewrite E, E', <- exp_plus. f_equal.
    assert (Z : Msum [] = 0%R).
    { assert (X : forall l, List.Forall (good_kind data) l -> rsum (map (fun k => Mof lg k []) l) = 0%R).
      { intros l Hl. induction Hl as [|k l Hk _ IH]; cbn [map rsum]; [reflexivity|]. rewrite (M_empty lg data k Hk), IH. lra. }
      exact (X ks Hks). }
    rewrite Z. lra.
  Qed.

  Lemma stationary c L n seated i : cinv' c L n seated -> In i seated -> n + 2 <= 2 ^ 32 ->
    exists cs, List.Forall (fun c1 => (exists p, client_run dl m data c [Unseat i; Seat i (pick_at p)] = Ok c1) /\
          agree_off i (cl_assign c) (cl_assign c1) /\ (exists L1 n1 s1, cinv' c1 L1 n1 s1 /\ In i s1 /\ n1 + 1 <= 2 ^ 32)) cs /\
      ForallOrdPairs (fun c1 c2 => ~ same_clusters (cl_assign c1) (cl_assign c2)) cs /\
      (forall c' L' n' seated', cinv' c' L' n' seated' -> In i seated' -> agree_off i (cl_assign c) (cl_assign c') ->
         exists c1, In c1 cs /\ same_clusters (cl_assign c1) (cl_assign c')) /\
      forall Js ps J, List.Forall2 (fun c1 J => joint' (cl_sys c1) J) cs Js -> List.Forall2 (fun c1 p => move c1 i (cl_assign c) p) cs ps ->
        joint' (cl_sys c) J -> rsum (map (fun Jp => exp (fst Jp) * snd Jp)%R (combine Js ps)) = exp J.
  Proof.
    intros H Hi Hn. destruct (unseat_run c L n seated i H Hi) as (c0 & L0 & seated0 & w & Hw & E0 & I0 & Ni & Ea).
    destruct (outcomes c0 L0 n seated0 i w I0 Hw Ni ltac:(lia) L0 [] eq_refl) as (gcs & F & Ef & Hs).
    destruct (new_outcome c0 L0 n seated0 i w I0 Hw Ni ltac:(lia)) as (g & cn & On & Hg & Hsn).
    set (a0 := cl_assign c0) in *.
    assert (A0 : a0 !! i = None) by (rewrite Ea; apply lookup_delete).
    assert (Mem : forall g xs, In (g, xs) L0 -> (xs = [] <-> forall j, a0 !! j <> Some g)).
    { clear - I0. intros g xs Hg. destruct (ci_members _ _ _ _ _ _ _ _ _ I0 g xs Hg) as (is & Nd & His & F2). fold a0 in His. split.
      - intros -> j E. apply His in E. inversion F2; subst. destruct E.
      - intro X. destruct is as [|j is]; [now inversion F2|]. exfalso. apply (X j). apply His. now left. }
    assert (Ag : forall g1 (a1 : gmap nat Z), a1 = <[i := g1]> a0 -> agree_off i (cl_assign c) a1).
    { intros g1 a1 ->. unfold agree_off. rewrite <- Ea. rewrite delete_insert by exact A0. apply same_refl. }
    assert (Ag2 : forall g1 (a1 : gmap nat Z), a1 = <[i := g1]> a0 -> same_clusters a0 (delete i a1)).
    { intros g1 a1 ->. rewrite delete_insert by exact A0. apply same_refl. }
    set (all := gcs ++ [(g, cn)]).
    assert (Fa : List.Forall (fun gc => outcome_of c0 (length L0) n seated0 i (fst gc) (snd gc)) all) by (apply List.Forall_app; split; [exact F|now constructor]).
    assert (Hin : forall g1 c1, In (g1, c1) gcs -> exists xs, In (g1, xs) L0 /\ xs <> []).
    { intros g1 c1 X. apply (in_map fst) in X. cbn [fst] in X. rewrite Ef in X. apply in_map_iff in X as ([g' xs] & E & X). cbn [fst] in E. subst g'.
      apply List.filter_In in X as [X Y]. cbn [snd] in Y. exists xs. split; [exact X|]. intros ->. discriminate. }
    assert (Hmate : forall g1 c1, In (g1, c1) gcs -> exists j, a0 !! j = Some g1).
    { intros g1 c1 X. destruct (Hin g1 c1 X) as (xs & Hx & Hne). destruct (ci_members _ _ _ _ _ _ _ _ _ I0 g1 xs Hx) as (is & Nd & His & F2).
      destruct F2 as [|j y is ys]; [congruence|]. exists j. apply His. now left. }
    pose proof (ids_nodup _ _ _ _ _ _ _ (ci_sys _ _ _ _ _ _ _ _ _ I0)) as Nd.
    assert (Nda : List.NoDup (map fst all)).
    { unfold all. rewrite map_app. cbn [map fst]. apply (Permutation_NoDup (l := g :: map fst gcs)); [apply Permutation_cons_append|]. constructor.
      - intro X. apply in_map_iff in X as ([g1 c1] & E & X). cbn [fst] in E. subst g1. destruct (Hin g c1 X) as (xs & Hx & Hne).
        apply Hne. apply (Mem g xs Hx). apply (Mem g [] Hg). reflexivity.
      - rewrite Ef. clear - Nd. induction L0 as [|[g xs] L0 IH]; cbn [map List.filter]; [constructor|]. cbn [map fst] in Nd. inversion Nd as [|? ? N1 N2]; subst.
        destruct (negb _); [|now apply IH]. cbn [map fst]. constructor; [|now apply IH]. intro X. apply N1. apply in_map_iff in X as (y & E & X).
        apply List.filter_In in X as [X _]. apply in_map_iff. eauto. }
    assert (Pair : forall g1 c1 g2 c2, In (g1, c1) all -> In (g2, c2) all -> g1 <> g2 -> (exists j, a0 !! j = Some g1) -> ~ same_clusters (cl_assign c1) (cl_assign c2)).
    { intros g1 c1 g2 c2 X1 X2 Hne (j & Ej) S. rewrite List.Forall_forall in Fa.
      destruct (Fa _ X1) as (p1 & M1 & k1 & _ & _ & A1 & _). destruct (Fa _ X2) as (p2 & M2 & k2 & _ & _ & A2 & _). cbn [fst snd] in *. fold a0 in A1, A2.
      rewrite A1, A2 in S. destruct S as [_ S]. assert (Nj : j <> i) by congruence. specialize (S j i). rewrite !lookup_insert, !lookup_insert_ne in S by congruence.
      assert (X : a0 !! j = Some g2) by (apply S; congruence). congruence. }
    exists (map snd all). split; [|split; [|split]].
    - apply List.Forall_forall. intros c1 Hc. apply in_map_iff in Hc as ([g1 c1'] & E & Hc). cbn [snd] in E. subst c1'.
      rewrite List.Forall_forall in Fa. destruct (Fa _ Hc) as (p & L1 & n1 & Hpl & E1 & A1 & I1 & B1). cbn [fst snd] in *. fold a0 in A1. split; [|split].
      + exists p. cbn [client_run]. rewrite E0. cbn [obind]. rewrite (seat_pick c0 L0 n seated0 i w p I0 Hw Ni Hpl), E1. reflexivity.
      + now apply (Ag g1).
      + exists L1, n1, (i :: seated0). split; [exact I1|]. split; [now left|lia].
    - assert (X : ForallOrdPairs (fun gc1 gc2 : Z * client W R => ~ same_clusters (cl_assign (snd gc1)) (cl_assign (snd gc2))) all).
      { assert (Y : forall gs, (forall x, In x gs -> In x all) -> (forall x, In x gs -> exists j, a0 !! j = Some (fst x)) -> List.NoDup (map fst (gs ++ [(g, cn)])) ->
          ForallOrdPairs (fun gc1 gc2 : Z * client W R => ~ same_clusters (cl_assign (snd gc1)) (cl_assign (snd gc2))) (gs ++ [(g, cn)])).
        { induction gs as [|[g1 c1] gs IH]; intros Hs1 Hs2 N1; cbn [app] in *; [repeat constructor|]. cbn [map fst] in N1. inversion N1 as [|? ? M1 M2]; subst. constructor.
          - apply List.Forall_forall. intros [g2 c2] X2. cbn [snd]. apply (Pair g1 c1 g2 c2).
            + apply Hs1. now left.
            + apply in_app_iff in X2 as [X2|[X2|[]]]; [apply Hs1; now right|]. rewrite <- X2. unfold all. apply in_app_iff. right. now left.
            + intros ->. apply M1. apply in_map_iff. exists (g2, c2). split; [reflexivity|]. exact X2.
            + apply (Hs2 (g1, c1)). now left.
          - apply IH; [intros; apply Hs1; now right|intros; apply Hs2; now right|exact M2]. }
        apply Y; [intros x Hx; unfold all; apply in_app_iff; now left| |exact Nda]. intros [g1 c1] Hx. cbn [fst]. now apply (Hmate g1 c1). }
      clear - X. induction X as [|y l Hy X IH]; cbn [map]; [constructor|]. constructor; [|exact IH]. apply List.Forall_map. exact Hy.
    - intros c' L' n' seated' H' Hi' Ha. unfold agree_off in Ha. rewrite <- Ea in Ha.
      destruct (hit_set lg Hlg dl data Hlen m ks Hm Hks c0 L0 n seated0 i w c' L' n' seated' I0 Hw Ni ltac:(lia) H' Hi' Ha) as (h & _ & Hh & Sh).
      destruct h as [|p h]; [exfalso; cbn [map rsum] in Sh; match type of Sh with _ = exp ?a => pose proof (exp_pos a); lra end|].
      destruct (proj1 (Hh p) (or_introl eq_refl)) as (Hp & c1 & E1 & S1). destruct (nth_error L0 p) as [[g1 xs]|] eqn:Ep; [|apply nth_error_None in Ep; lia].
      pose proof Ep as Ep'. apply nth_error_split in Ep as (L1 & L2 & EL & <-). pose proof I0 as Hc. rewrite EL in Hc.
      destruct (seat_result lg Hlg dl data Hlen m ks Hm Hks c0 L1 g1 xs L2 n seated0 i w Hc Hw Ni ltac:(lia)) as (c1' & L2' & n1 & E1' & A1 & _).
      rewrite E1' in E1. injection E1 as <-. fold a0 in A1. rewrite A1 in S1. apply nth_error_In in Ep'.
      destruct xs as [|x xs].
      + exists cn. split; [unfold all; rewrite map_app; apply in_app_iff; right; now left|]. destruct On as (_ & _ & _ & _ & _ & An & _). fold a0 in An. rewrite An.
        apply same_trans with (2 := S1). split.
        * intro j. destruct (decide (i = j)) as [<-|Nj]; [now rewrite !lookup_insert|now rewrite !lookup_insert_ne by exact Nj].
        * pose proof (proj1 (Mem g [] Hg) eq_refl) as G1. pose proof (proj1 (Mem g1 [] Ep') eq_refl) as G2.
          intros j k _ _. destruct (decide (i = j)) as [<-|Nj], (decide (i = k)) as [<-|Nk]; rewrite ?lookup_insert, ?lookup_insert_ne by assumption; try tauto.
          -- split; intro X; symmetry in X; [now apply G1 in X|now apply G2 in X].
          -- split; intro X; [now apply G1 in X|now apply G2 in X].
      + assert (X : In g1 (map fst gcs)).
        { rewrite Ef. apply in_map_iff. exists (g1, x :: xs). split; [reflexivity|]. apply List.filter_In. split; [exact Ep'|reflexivity]. }
        apply in_map_iff in X as ([g' c1] & E & X). cbn [fst] in E. subst g'. exists c1. split; [unfold all; rewrite map_app; apply in_app_iff; left; apply in_map_iff; now exists (g1, c1)|].
        rewrite List.Forall_forall in F. destruct (F _ X) as (_ & _ & _ & _ & _ & An & _). cbn [fst snd] in An. fold a0 in An. now rewrite An.
    - intros Js ps J FJ Fp HJ.
      assert (V : List.Forall (fun p => p = (exp J / (exp (Jrows (map snd L0)) * Zf (full (map snd L0)) w))%R) ps).
      { apply (joint_iff _ _ _ _ _ H) in HJ as ->. clear FJ Js. revert ps Fp. clear Nda Pair. induction Fa as [|[g1 c1] l (p1 & L1 & n1 & _ & E1 & A1 & I1 & B1) Fl IH]; cbn [map snd fst]; intros ps Fp; inversion Fp as [|? p ? ps' Hp Fp']; subst; constructor.
        - cbn [fst snd] in *. fold a0 in A1.
          destruct (move_law c1 L1 n1 _ i c L n seated I1 (or_introl eq_refl) ltac:(lia) H Hi (same_sym _ _ (Ag g1 _ A1))) as (c0' & L0' & s0' & w' & Hw' & I0' & E0' & Iff).
          rewrite Hw in Hw'. injection Hw' as <-. apply Iff in Hp as ->.
          assert (S : same_clusters (cl_assign c0') (cl_assign c0)).
          { rewrite E0', A1, delete_insert by exact A0. apply same_refl. }
          now rewrite (J_clusters lg dl data m ks Hks _ _ _ _ _ _ _ _ I0' I0 S), (Z_clusters lg dl data m ks _ _ _ _ _ _ _ _ w I0' I0 S).
        - now apply IH. }
      assert (T : rsum (map exp Js) = (exp (Jrows (map snd L0)) * Zf (full (map snd L0)) w)%R).
      { unfold all in FJ. rewrite map_app in FJ. apply Forall2_app_inv_l in FJ as (J1 & J2 & F1 & F2 & ->). cbn [map snd] in F2. inversion F2 as [|? Jn ? r HJn Fr]; subst. inversion Fr; subst.
        rewrite map_app, PitmanYorR.rsum_app. cbn [map rsum]. rewrite (Hsn _ HJn).
        assert (F1' : List.Forall2 (fun (gc : Z * client W R) J => joint' (cl_sys (snd gc)) J) gcs J1).
        { clear - F1. revert J1 F1. induction gcs as [|y l IH]; cbn [map]; intros J1 F1; inversion F1; subst; constructor; auto. }
        rewrite (Hs _ F1'). unfold GibbsProof.Zf. rewrite !concat_full. ring. }
      pose proof (Zf_pos (full (map snd L0)) w) as Zp. pose proof (exp_pos (Jrows (map snd L0))) as Jp.
      assert (Ll : length Js = length ps).
      { apply Forall2_length in FJ, Fp. congruence. }
      assert (X : rsum (map (fun Jp => exp (fst Jp) * snd Jp)%R (combine Js ps)) = (rsum (map exp Js) * (exp J / (exp (Jrows (map snd L0)) * Zf (full (map snd L0)) w)))%R).
      { clear - V Ll. revert Js Ll. induction V as [|p ps -> V IH]; intros [|J1 Js] Ll; try discriminate; cbn [combine map rsum fst snd]; [lra|].
        rewrite IH by (injection Ll; auto). lra. }
      rewrite X, T. field. split; lra.
  Qed.

  (** States the sampler reaches. *)
  Notation reached' := (reached lg dl m ks data).
  Lemma follow_all feats : map fs_f feats = map (feature_of lg) ks ->
    List.Forall (fun x => exists Inv pred, follows (N:=NumR lg) dl (ok data) (fs_f x) Inv pred) feats.
  Proof.
    intro Hf. clear - Hf Hks. revert feats Hf. induction ks as [|k l IH]; intros [|f feats] Hf; try discriminate; constructor.
    - cbn [map] in Hf. injection Hf as -> _. apply good_follows. now inversion Hks.
    - cbn [map] in Hf. injection Hf as _ Hf. apply IH; [now inversion Hks|exact Hf].
  Qed.
  Lemma init_exists k old feats : (1 <= k)%nat -> map fs_f feats = map (feature_of lg) ks -> Z.of_nat k <= 2 ^ 32 -> exists s0, sys_init dl m old feats k = Ok s0.
  Proof. intros Hk Hf Hn. destruct (sys_init_ok (N:=NumR lg) dl (ok data) m old k feats Hk Hn (follow_all feats Hf)) as (s & E' & _). eauto. Qed.
  Lemma start k old feats s0 : (1 <= k)%nat -> map fs_f feats = map (feature_of lg) ks -> sys_init dl m old feats k = Ok s0 -> Z.of_nat k <= 2 ^ 32 ->
    cinv' (mk_client s0 ∅) (fst (new_world k)) (Z.of_nat k) [].
  Proof.
    intros Hk Hf E Hn.
    destruct (sys_init_ok (N:=NumR lg) dl (ok data) m old k feats Hk Hn (follow_all feats Hf)) as (s & E' & I). rewrite E' in E. injection E as <-.
    apply client_start; [now rewrite <- Hf|]. unfold rows_in. rewrite (proj1 (proj2 (new_perm k))). clear. induction k; cbn [repeat concat]; auto.
  Qed.
  Lemma seats_nonneg (ops : list (cop R)) : 0 <= seats ops.
  Proof. induction ops as [|[i p|i] ops IH]; cbn [seats]; lia. Qed.
  Lemma reached_cinv room c : 0 <= room -> reached' room c -> exists L n seated, cinv' c L n seated /\ n + room <= 2 ^ 32.
  Proof.
    intros Hr (old & feats & k & s0 & ops & seated & Hk & Hf & E & Hp & Hn & Er). pose proof (seats_nonneg ops).
    pose proof (start k old feats s0 Hk Hf E ltac:(lia)) as I.
    destruct (client_ok_n (N:=NumR lg) dl (ok data) m _ data (data_in data) Hlen ops _ _ _ _ seated I Hp ltac:(lia)) as (c' & L & n & E' & I' & B).
    rewrite Er in E'. injection E' as <-. exists L, n, seated. split; [exact I'|lia].
  Qed.
  Lemma plan_more n (a : list nat) (o1 o2 : list (cop R)) b c : plan n a o1 b -> plan n b o2 c -> plan n a (o1 ++ o2) c.
  Proof. induction 1; intro H'; cbn [app]; [exact H'|now constructor; auto|constructor; auto]. Qed.
  Lemma run_more o1 o2 : forall c c1, client_run dl m data c o1 = Ok c1 -> client_run dl m data c (o1 ++ o2) = client_run dl m data c1 o2.
  Proof.
    induction o1 as [|o o1 IH]; intros c c1 E; cbn [app client_run] in *; [injection E as ->; reflexivity|].
    destruct (client_run1 dl m data c o) as [c2| |]; try discriminate. cbn [obind] in *. now apply IH.
  Qed.
  Lemma seats_more (o1 o2 : list (cop R)) : seats (o1 ++ o2) = seats o1 + seats o2.
  Proof. induction o1 as [|[i p|i] o1 IH]; cbn [app seats]; lia. Qed.
  Lemma reached_more room c i : 0 <= room -> reached' (room + 1) c -> cl_assign c !! i <> None -> forall p c1,
    client_run dl m data c [Unseat i; Seat i (pick_at p)] = Ok c1 -> reached' room c1.
  Proof.
    intros Hr (old & feats & k & s0 & ops & seated & Hk & Hf & E & Hp & Hn & Er) Hi p c1 E1. pose proof (seats_nonneg ops).
    pose proof (start k old feats s0 Hk Hf E ltac:(lia)) as I.
    destruct (client_ok_n (N:=NumR lg) dl (ok data) m _ data (data_in data) Hlen ops _ _ _ _ seated I Hp ltac:(lia)) as (c' & L & n & E' & I' & B).
    rewrite Er in E'. injection E' as <-. pose proof (seated_in _ _ _ _ _ I' Hi) as Hs.
    pose proof (ci_range _ _ _ _ _ _ _ _ _ I' i Hs) as Hd. pose proof (ci_nodup _ _ _ _ _ _ _ _ _ I') as Nd. apply in_split in Hs as (a & b & ->).
    exists old, feats, k, s0, (ops ++ [Unseat i; Seat i (pick_at p)]), (i :: a ++ b). split; [exact Hk|]. split; [exact Hf|]. split; [exact E|]. split; [|split].
    - eapply plan_more; [exact Hp|]. constructor. constructor; [exact Hd|now apply List.NoDup_remove_2|apply pick_at_ok|constructor].
    - rewrite seats_more. cbn [seats]. lia.
    - rewrite (run_more _ _ _ _ Er). exact E1.
  Qed.
  Lemma reached_start k old feats s0 room : (1 <= k)%nat -> map fs_f feats = map (feature_of lg) ks -> sys_init dl m old feats k = Ok s0 -> Z.of_nat k + room <= 2 ^ 32 ->
    reached' room (mk_client s0 ∅).
  Proof. intros Hk Hf E Hn. exists old, feats, k, s0, [], []. repeat split; auto; [constructor|cbn [seats]; lia]. Qed.
  Lemma reached_seat room c i w : 0 <= room -> reached' (room + 1) c -> nth_error data i = Some w -> cl_assign c !! i = None -> forall p c1,
    client_run1 dl m data c (Seat i (pick_at p)) = Ok c1 -> reached' room c1.
  Proof.
    intros Hr (old & feats & k & s0 & ops & seated & Hk & Hf & E & Hp & Hn & Er) Hw Hi p c1 E1. pose proof (seats_nonneg ops).
    pose proof (start k old feats s0 Hk Hf E ltac:(lia)) as I.
    destruct (client_ok_n (N:=NumR lg) dl (ok data) m _ data (data_in data) Hlen ops _ _ _ _ seated I Hp ltac:(lia)) as (c' & L & n & E' & I' & B).
    rewrite Er in E'. injection E' as <-.
    exists old, feats, k, s0, (ops ++ [Seat i (pick_at p)]), (i :: seated). split; [exact Hk|]. split; [exact Hf|]. split; [exact E|]. split; [|split].
    - eapply plan_more; [exact Hp|]. constructor; [apply nth_error_Some; congruence| |apply pick_at_ok|constructor].
      intro X. apply (ci_seated _ _ _ _ _ _ _ _ _ I') in X as [g X]. congruence.
    - rewrite seats_more. cbn [seats]. lia.
    - rewrite (run_more _ _ _ _ Er). cbn [client_run]. rewrite E1. reflexivity.
  Qed.

  (** Rows 0 and 1 together or apart. *)
  Lemma two_states (old : list R) (feats : list (fstate W R)) w0 w1 rest : map fs_f feats = map (feature_of lg) ks -> data = w0 :: w1 :: rest ->
    exists c c', reached' 2 c /\ reached' 2 c' /\ cl_assign c = {[ 0%nat := 0; 1%nat := 0 ]} /\
      exists g, g <> 0 /\ cl_assign c' = {[ 0%nat := 0; 1%nat := g ]}.
  Proof.
    intros Hf Hd. destruct (init_exists 1 old feats ltac:(lia) Hf ltac:(lia)) as (s0 & E).
    pose proof (start 1 old feats s0 ltac:(lia) Hf E ltac:(lia)) as I. pose proof (reached_start 1 old feats s0 4 ltac:(lia) Hf E ltac:(lia)) as R0.
    change (fst (new_world 1)) with (([] : list (Z * list W)) ++ (0, []) :: []) in I.
    assert (Hw0 : nth_error data 0 = Some w0) by now rewrite Hd. assert (Hw1 : nth_error data 1 = Some w1) by now rewrite Hd.
    destruct (seat_result lg Hlg dl data Hlen m ks Hm Hks _ _ _ _ _ _ _ 0%nat w0 I Hw0 (fun x => x) ltac:(lia)) as (c1 & L2 & n1 & E1 & A1 & I1 & B1 & _).
    cbn [length app] in *.
    pose proof (seat_pick _ _ _ _ 0%nat w0 0%nat I Hw0 (fun x => x) ltac:(cbn [length]; lia)) as P1. rewrite E1 in P1.
    assert (R1 : reached' 3 c1) by (apply (reached_seat 3 _ 0%nat w0 ltac:(lia) R0 Hw0 (lookup_empty _) 0%nat c1 P1)).
    assert (N1 : ~ In 1%nat [0%nat]) by (intros [X|[]]; discriminate).
    cbn [cl_assign] in A1. assert (A1' : cl_assign c1 !! 1%nat = None) by (rewrite A1, lookup_insert_ne by discriminate; apply lookup_empty).
    change ((0, [w0]) :: L2) with ([] ++ (0, [w0]) :: L2) in I1.
    destruct (seat_result lg Hlg dl data Hlen m ks Hm Hks _ _ _ _ _ _ _ 1%nat w1 I1 Hw1 N1 ltac:(lia)) as (c2 & L3 & n2 & E2 & A2 & _).
    cbn [length] in E2. pose proof (seat_pick _ _ _ _ 1%nat w1 0%nat I1 Hw1 N1 ltac:(cbn [app length]; lia)) as P2. rewrite E2 in P2.
    assert (R2 : reached' 2 c2) by (apply (reached_seat 2 _ 1%nat w1 ltac:(lia) R1 Hw1 A1' 0%nat c2 P2)).
    pose proof (has_empty _ _ _ _ I1) as Hz. cbn [app map snd] in Hz. destruct Hz as [Hz|Hz]; [discriminate|].
    apply in_map_iff in Hz as ([g xs] & X & Hz). cbn [snd] in X. subst xs. apply in_split in Hz as (M1 & M2 & ->).
    assert (Hg : g <> 0).
    { intros ->. pose proof (ids_nodup _ _ _ _ _ _ _ (ci_sys _ _ _ _ _ _ _ _ _ I1)) as Nd. cbn [app map fst] in Nd. inversion Nd as [|? ? X _]; subst.
      apply X. rewrite map_app. apply in_app_iff. right. now left. }
    change ([] ++ (0, [w0]) :: M1 ++ (g, []) :: M2) with (((0, [w0]) :: M1) ++ (g, []) :: M2) in I1.
    destruct (seat_result lg Hlg dl data Hlen m ks Hm Hks _ _ _ _ _ _ _ 1%nat w1 I1 Hw1 N1 ltac:(lia)) as (c3 & L4 & n3 & E3 & A3 & _).
    pose proof (seat_pick _ _ _ _ 1%nat w1 (length ((0, [w0]) :: M1)) I1 Hw1 N1 ltac:(rewrite app_length; cbn [length]; lia)) as P3. rewrite E3 in P3.
    assert (R3 : reached' 2 c3) by (apply (reached_seat 2 _ 1%nat w1 ltac:(lia) R1 Hw1 A1' _ c3 P3)).
    exists c2, c3. split; [exact R2|]. split; [exact R3|]. rewrite A2, A3, A1. split; [apply insert_commute; discriminate|].
    exists g. split; [exact Hg|]. apply insert_commute. discriminate.
  Qed.
End M.
