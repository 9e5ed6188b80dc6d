(** C34, C35 and the Dirichlet-process-discrete parts of C36: MixtureSlave with
    DirichletProcessDiscrete::MixtureValueScorer. *)
From Coq Require Import Permutation Reals Lra.
From Verif.spec Require Import GroupSpec GaussSpec SharedSpec SlaveSpec JointSpec.
From Verif.model Require Import Base Packed Num NumR NumTerm Component Slave SlaveRun Sparse DPD SharedRun JointRun.
From Verif.proof Require Import BaseProof GroupProof SlaveProof.
From stdpp Require Import gmap.
From Verif.proof Require Import MapSum DPDProof DPDScore DPDShared DPDSlave DPDSlaveRun DPDJoint.
From Verif.props Require Import SlaveProps.
Local Open Scope Z_scope.

(** [gs] are the groups holding [data], each filled by add_value from init. *)
Definition groups_hold {F} dl (sh : dpd_shared F) (gs : list counter) (data : list (list Z)) : Prop :=
  List.Forall2 (fun g xs => c_filled (DPD F) dl sh xs = Ok g) gs data.
Lemma hold_eq {F} dl (sh : dpd_shared F) gs data : known_data sh data -> (groups_hold dl sh gs data <-> gs = map dpd_stat data).
Proof.
  intro H. split.
  - intro G. unfold groups_hold in G. induction G as [|g xs gs data E G IH]; [reflexivity|]. inversion H as [|? ? H1 H2]; subst.
    cbn [map]. rewrite (dpd_filled dl sh xs H1) in E. injection E as <-. f_equal. now apply IH.
  - intros ->. unfold groups_hold. induction H as [|xs data H1 H2 IH]; cbn [map]; constructor; [now apply dpd_filled|exact IH].
Qed.
Lemma start_then {C F} (S : vscorer C F) dl sh gs garbage ops s0 s : slave_init S dl sh (mk_slave gs garbage) = Ok s0 ->
  slave_run S dl sh s0 ops = Ok s -> slave_start S dl sh gs garbage ops = Ok s.
Proof. intros E E'. unfold slave_start. rewrite E. exact E'. Qed.
Lemma tot_le data v : tot data v <= Z.of_nat (length (concat data)).
Proof. rewrite tot_uses. unfold uses. pose proof (count_occ_bound BinInt.Z.eq_dec v (concat data)). lia. Qed.
Lemma added_dfast {F} {N : Num F} (sh : dpd_shared F) data v accum (score : nat -> outcome F) :
  length accum = length data -> (forall i xs, nth_error data i = Some xs -> score i = Ok (dfast sh xs v)) ->
  added nadd accum (col_add accum (map (fun xs => dfast sh xs v) data)) score.
Proof.
  intros Hl Hs. split; [apply col_add_length; now rewrite map_length|]. intros i x Hi.
  assert (exists xs, nth_error data i = Some xs) as [xs Hx].
  { destruct (nth_error data i) eqn:E; [eauto|]. apply nth_error_None in E. apply nth_lt in Hi. lia. }
  exists (dfast sh xs v). split; [now apply Hs|]. apply nth_col_add; [exact Hi|]. now apply (map_nth_error (fun xs => dfast sh xs v)).
Qed.

(** ** C34.  In every arithmetic in which adding zero changes nothing; every debug level; whatever
    the caches held before init; every history with values of the shared (reference counts are 32
    bit: fewer than 2^32 initial values plus calls).  No call fails, the groups hold the data, and
    every value of the shared, and OTHER, is scored as after a fresh init from the current groups:
    per group and accumulated into a buffer. *)
Theorem C34_dpd_cache_fresh : forall (F : Type) (N : Num F), (forall x : F, nadd x (nof 0) = x) ->
  forall dl (sh : dpd_shared F) gs data garbage ops data' garbage',
  let S := dpd_vscorer (F:=F) in
  let known v := v <> OTHER /\ dp_betas sh !! v <> None in
  let fits := List.Forall (drawn_from known) in
  dp_betas sh !! OTHER = None -> fits data -> groups_hold dl sh gs data -> shistory fits data ops data' ->
  Z.of_nat (length (concat data)) + Z.of_nat (length ops) < 4294967296 ->
  exists s q, slave_start S dl sh gs garbage ops = Ok s /\ groups_hold dl sh (sl_groups s) data' /\
    slave_init S dl sh (mk_slave (S:=S) (sl_groups s) garbage') = Ok q /\ sl_groups q = sl_groups s /\
    forall v, known v \/ v = OTHER -> same_scores S S dl sh s q v /\
      (forall i, (i < length data')%nat -> exists x, slave_score_value_group S dl sh s i v = Ok x).
Proof.
  intros F N Hz dl sh gs data garbage ops data' garbage' S known fits Ho Hf Hg Hh Hb.
  apply (hold_eq dl sh gs data Hf) in Hg. subst gs.
  destruct (start_data dl sh data garbage Hf) as (s0 & E0 & G0 & I0 & _ & R0). { intro v. pose proof (tot_le data v). lia. }
  destruct (run_data dl Hz sh ops data data' s0 (Z.of_nat (length (concat data))) G0 I0 Hf Hh) as (s & E & G & I & K).
  { intro v. rewrite R0. apply tot_le. } { exact Hb. }
  assert (Ht : forall v, tot data' v < 4294967296).
  { (* the reference counts bound the data *)
    assert (X : forall ops data data', shistory fits data ops data' -> forall v, tot data' v <= tot data v + Z.of_nat (length ops)).
    { clear. induction 1 as [d|d o d1 ops d2 Hst _ _ IH]; intro v; [cbn; lia|]. specialize (IH v). cbn [length].
      assert (tot d1 v <= tot d v + 1); [|lia].
      destruct Hst as [d|i d xs d' Ht|d1 xs d2' w|d1 a w b d2']; rewrite ?tot_app, ?tot_cons.
      - cbn [tot fold_right]. unfold zcount. cbn. lia.
      - rewrite (tot_perm _ _ v (taken_out_perm _ _ _ _ Ht)), tot_cons. pose proof (zcount_nonneg xs v). lia.
      - rewrite zcount_cons. destruct (Z.eqb_spec v w) as [Ev|]; [subst v|]; lia.
      - rewrite (zcount_perm _ _ v (Permutation_sym (Permutation_middle a b w))), zcount_cons. destruct (Z.eqb_spec v w) as [Ev|]; [subst v|]; lia. }
    intro v. pose proof (X _ _ _ Hh v). pose proof (tot_le data v). lia. }
  destruct (start_data dl sh data' garbage' K Ht) as (q & E1 & G1 & I1 & _ & _).
  unfold grp in G, G1. exists s, q. split; [|split; [|split; [|split]]].
  - exact (start_then (dpd_vscorer (F:=F)) dl sh _ _ _ _ _ E0 E).
  - apply (hold_eq dl sh _ data' K). exact G.
  - match goal with |- slave_init _ _ _ (mk_slave ?x _) = _ => replace x with (map dpd_stat data') by (symmetry; exact G) end. exact E1.
  - etransitivity; [exact G1|symmetry; exact G].
  - intros v Hv. assert (Sv : scorable sh v) by (destruct Hv; [now right|now left]).
    assert (Sg : forall s' : slave (dpd_vscorer (F:=F)), grp s' = map dpd_stat data' -> vsinv sh data' (vst s') -> forall i xs, nth_error data' i = Some xs ->
       slave_score_value_group S dl sh s' i v = Ok (dfast sh xs v)).
    { intros s' X Y i xs Hi. now apply (slave_score_group_ok dl Hz sh data' s'). }
    assert (Hx : forall i, (i < length data')%nat -> exists xs, nth_error data' i = Some xs).
    { intros i Hi. destruct (nth_error data' i) eqn:En; [eauto|]. apply nth_error_None in En. lia. }
    assert (Ln : length (sl_groups s) = length data') by (etransitivity; [exact (f_equal (@length counter) G)|apply map_length]).
    split; [split|].
    + intros i Hi0. assert (Hi : (i < length data')%nat) by (eapply Nat.lt_le_trans; [exact Hi0|apply Nat.eq_le_incl, Ln]). destruct (Hx i Hi) as [xs Hn]. now rewrite (Sg s G I i xs Hn), (Sg q G1 I1 i xs Hn).
    + intros accum Hl0. assert (Hl : length accum = length data') by (etransitivity; [exact Hl0|exact Ln]). unfold S. rewrite (slave_score_ok dl Hz sh data' s v accum), (slave_score_ok dl Hz sh data' q v accum); auto.
    + intros i Hi. destruct (Hx i Hi) as [xs Hn]. exists (dfast sh xs v). now apply Sg.
Qed.
Print Assumptions C34_dpd_cache_fresh.

(** In exact arithmetic the cached scores are Group::score_value. *)
Theorem C34_dpd_scores_current : forall lg dl (sh : dpd_shared R) gs data garbage ops data',
  let S := dpd_vscorer (N:=NumR lg) in
  let known v := v <> OTHER /\ dp_betas sh !! v <> None in
  let fits := List.Forall (drawn_from known) in
  (0 < dp_alpha sh)%R -> (forall v b, dp_betas sh !! v = Some b -> 0 < b)%R ->
  dp_betas sh !! OTHER = None -> fits data -> groups_hold dl sh gs data -> shistory fits data ops data' ->
  Z.of_nat (length (concat data)) + Z.of_nat (length ops) < 4294967296 ->
  exists s : slave S, slave_start S dl sh gs garbage ops = Ok s /\ groups_hold dl sh (sl_groups s) data' /\
    forall v, known v \/ v = OTHER /\ (0 < dp_beta0 sh)%R ->
    forall i g, nth_error (sl_groups s) i = Some g ->
    exists x, dpd_score_value (N:=NumR lg) dl sh g v = Ok x /\ slave_score_value_group S dl sh s i v = Ok x.
Proof.
  intros lg dl sh gs data garbage ops data' S known fits Ha Hb Ho Hf Hg Hh Hn.
  apply (hold_eq dl sh gs data Hf) in Hg. subst gs.
  destruct (start_data (N:=NumR lg) dl sh data garbage Hf) as (s0 & E0 & G0 & I0 & _ & R0). { intro v. pose proof (tot_le data v). lia. }
  destruct (run_data (N:=NumR lg) dl (HzR lg) sh ops data data' s0 (Z.of_nat (length (concat data))) G0 I0 Hf Hh) as (s & E & G & I & K).
  { intro v. rewrite R0. apply tot_le. } { exact Hn. }
  exists s. split; [exact (start_then (dpd_vscorer (N:=NumR lg)) dl sh _ _ _ _ _ E0 E)|]. split; [now apply (hold_eq dl sh _ data' K)|].
  intros v Hv i g Hi. change (nth_error (grp s) i = Some g) in Hi. rewrite G in Hi. rewrite nth_error_map in Hi.
  destruct (nth_error data' i) as [xs|] eqn:Hx; cbn [option_map] in Hi; [|discriminate]. injection Hi as <-.
  exists (dfast (N:=NumR lg) sh xs v). split; [now apply dfast_eq|].
  apply (slave_score_group_ok (N:=NumR lg) dl (HzR lg) sh data' s i xs v); auto. destruct Hv as [Hv|[-> _]]; [now right|now left].
Qed.
Print Assumptions C34_dpd_scores_current.

(** ** C36 for this model, in every arithmetic, after any history. *)
Theorem C36_dpd_score_value_accumulates : forall (F : Type) (N : Num F), (forall x : F, nadd x (nof 0) = x) ->
  forall dl (sh : dpd_shared F) gs data garbage ops data' s v accum,
  let S := dpd_vscorer (F:=F) in
  let known v := v <> OTHER /\ dp_betas sh !! v <> None in
  let fits := List.Forall (drawn_from known) in
  dp_betas sh !! OTHER = None -> fits data -> groups_hold dl sh gs data -> shistory fits data ops data' ->
  Z.of_nat (length (concat data)) + Z.of_nat (length ops) < 4294967296 ->
  slave_start S dl sh gs garbage ops = Ok s -> known v \/ v = OTHER -> length accum = length (sl_groups s) ->
  exists r, slave_score_value S dl sh s v accum = Ok r /\
    added nadd accum r (fun i => slave_score_value_group S dl sh s i v).
Proof.
  intros F N Hz dl sh gs data garbage ops data' s v accum S known fits Ho Hf Hg Hh Hn Hs Hv Hl.
  apply (hold_eq dl sh gs data Hf) in Hg. subst gs.
  destruct (start_data dl sh data garbage Hf) as (s0 & E0 & G0 & I0 & _ & R0). { intro w. pose proof (tot_le data w). lia. }
  destruct (run_data dl Hz sh ops data data' s0 (Z.of_nat (length (concat data))) G0 I0 Hf Hh) as (s1 & E & G & I & K).
  { intro w. rewrite R0. apply tot_le. } { exact Hn. }
  assert (s1 = s) as ->.
  { pose proof (start_then (dpd_vscorer (F:=F)) dl sh _ _ _ _ _ E0 E) as X. pose proof (eq_trans (eq_sym X) Hs) as Y. now injection Y. }
  assert (Sv : scorable sh v) by (destruct Hv; [now right|now left]).
  change (length accum = length (grp s)) in Hl. rewrite G, map_length in Hl. eexists. split; [now apply (slave_score_ok dl Hz sh data' s v accum)|].
  apply added_dfast; [exact Hl|]. intros i xs Hi. now apply (slave_score_group_ok dl Hz sh data' s).
Qed.
Print Assumptions C36_dpd_score_value_accumulates.

(** A history that moves the last group into the first place and empties value 7. *)
Definition ex_term : dpd_shared term :=
  mk_dpd_shared (TLit 1 1) (TLit 1 2) (TLit 1 4) {[ 3 := TLit 1 2; 7 := TLit 1 4 ]} (dpd_stat [3; 3; 7]).
Example C34_nonvacuous :
  let S := dpd_vscorer (N:=NumTerm) in
  let ops := [SAddGroup; SAdd 2%nat 3; SAdd 2%nat 7; SRem 1%nat 7; SRemGroup 0%nat; SRem 0%nat 7] in
  shistory (List.Forall (drawn_from (dpd_known ex_term))) [[3]; [7]] ops [[3]; []] /\
  match slave_start S 3 ex_term [dpd_stat [3]; dpd_stat [7]] (mk_dpd_vs ∅ [TOf 9]) ops with
  | Ok s => slave_score_value_group S 3 ex_term s 0 3 =
      Ok (TSub (TLog (TAdd (TMul (TLit 1 2) (TLit 1 2)) (TOf 1))) (TLog (TAdd (TLit 1 2) (TOf 1))))
  | _ => False
  end.
Proof.
  assert (K3 : dpd_known ex_term 3) by (split; [discriminate|vm_compute; discriminate]).
  assert (K7 : dpd_known ex_term 7) by (split; [discriminate|vm_compute; discriminate]).
  split; [|vm_compute; reflexivity].
  assert (D : forall l, List.Forall (dpd_known ex_term) l -> short l -> drawn_from (dpd_known ex_term) l) by (intros; split; auto).
  Ltac fit := repeat (apply List.Forall_cons; [split; [unfold short; cbn; lia|repeat (apply List.Forall_cons; [assumption|]); apply List.Forall_nil]|]); apply List.Forall_nil.
  eapply sh_cons; [apply ss_addg|cbn [app]; fit|cbn [app]].
  eapply sh_cons; [apply (ss_add [[3]; [7]] [] [] 3)|cbn [app]; fit|cbn [app]].
  eapply sh_cons; [apply (ss_add [[3]; [7]] [3] [] 7)|cbn [app]; fit|cbn [app]].
  eapply sh_cons; [apply (ss_rem [[3]] [] 7 [] [[7; 3]])|cbn [app]; fit|cbn [app]].
  eapply sh_cons; [eapply ss_remg, (to_inner [] [3] [[]] [7; 3])|cbn [app]; fit|cbn [app]].
  eapply sh_cons; [apply (ss_rem [] [] 7 [3] [[]])|cbn [app]; fit|cbn [app]].
  apply sh_nil.
Qed.

(** ** C35.  The shared is loaded from a message holding the values l0 with some mass left and
    every one of its values used by the mixture (for instance both are empty); then shared and
    mixture are used together under the protocol of [jhistory].  No call fails or is undefined
    and the cached scores are the direct scores under the current shared.
    Full statement: any loaded shared and any removal of groups.  Missing: shared values that no
    group uses (then it is false, see the refutations) and removing non-empty groups. *)
Theorem C35_dpd_cache_follows_shared_partial : forall lg dl m l0 sh0 gs data0 garbage ops l data,
  let S := dpd_vscorer (N:=NumR lg) in
  good_message (dm_values m) (dm_betas m) (dm_counts m) l0 -> dps_load (N:=NumR lg) dl m = Ok sh0 ->
  (0 < dm_alpha m)%R -> (0 < dp_beta0 sh0)%R ->
  (forall v, uses data0 v <= count_occ BinInt.Z.eq_dec l0 v)%nat -> (forall v, In v l0 -> (1 <= uses data0 v)%nat) ->
  groups_hold dl sh0 gs data0 -> jhistory l0 data0 ops l data ->
  exists s0 sh (s : slave S), slave_init S dl sh0 (mk_slave (S:=S) gs garbage) = Ok s0 /\
    joint_run (N:=NumR lg) dl sh0 s0 ops = Ok (sh, s) /\ groups_hold dl sh (sl_groups s) data /\
    (forall v, dp_betas sh !! v <> None <-> In v l) /\
    forall v, In v l \/ v = OTHER ->
      (forall i g, nth_error (sl_groups s) i = Some g ->
         exists x, dpd_score_value (N:=NumR lg) dl sh g v = Ok x /\ slave_score_value_group S dl sh s i v = Ok x) /\
      (forall accum, length accum = length (sl_groups s) ->
         exists r, slave_score_value S dl sh s v accum = Ok r /\
           added Rplus accum r (fun i => slave_score_value_group S dl sh s i v)).
Proof.
  intros lg dl m l0 sh0 gs data0 garbage ops l data S Hm Hl Ha Hb Hu Hu' Hg Hh.
  destruct (load_ok lg dl m l0 Hm) as [A B]. destruct (Rle_lt_dec (rsum (dm_betas m)) (1 + / 10000)) as [Hs|Hs]; [|rewrite (B Hs) in Hl; discriminate].
  destruct (A Hs) as (sh1 & E & CV & G1 & G2 & G3 & G4 & _). rewrite E in Hl. injection Hl as ->.
  assert (Hsub : forall v, tot data0 v <= zcount l0 v) by (intro v; rewrite tot_uses; unfold zcount; specialize (Hu v); lia).
  pose proof (sub_known sh0 l0 data0 CV Hsub) as K0. apply (hold_eq dl sh0 gs data0 K0) in Hg. subst gs.
  destruct (start_data (N:=NumR lg) dl sh0 data0 garbage K0) as (s0 & E0 & Gs & I0 & H0 & R0).
  { intro v. specialize (Hsub v). pose proof (zcount_le l0 v). pose proof (cv_short _ _ CV) as X. unfold short in X. lia. }
  destruct (joint_ok lg dl ops sh0 s0 l0 data0 l data) as (sh & s & E1 & J & Al & _); [|exact Hh|].
  { split; auto. intro v. split; [apply R0|]. intro X. apply H0 in X. apply (cv_keys _ _ CV) in X. apply Hu' in X. rewrite tot_uses. lia. }
  destruct J as [J1 J2 J3 J4 J5 J6]. pose proof (sub_known sh l data J1 J6) as K.
  assert (Ho : dp_betas sh !! OTHER = None) by (apply (good_absent sh l); [exact J1|apply (cv_other _ _ J1)]).
  exists s0, sh, s. split; [exact E0|]. split; [exact E1|]. split; [now apply (hold_eq dl sh _ data K)|]. split; [apply (cv_keys _ _ J1)|].
  intros v Hv. assert (Hv' : dpd_known sh v \/ v = OTHER /\ (0 < dp_beta0 sh)%R).
  { destruct Hv as [Hv| ->]; [left|right; auto]. split; [intros ->; now apply (cv_other _ _ J1)|now apply (cv_keys _ _ J1)]. }
  assert (Sv : scorable sh v) by (destruct Hv' as [X|[-> _]]; [now right|now left]).
  assert (Sg : forall i xs, nth_error data i = Some xs -> slave_score_value_group S dl sh s i v = Ok (dfast (N:=NumR lg) sh xs v)).
  { intros i xs Hi. now apply (slave_score_group_ok (N:=NumR lg) dl (HzR lg) sh data s i xs v). }
  split.
  - intros i g Hi. change (nth_error (grp s) i = Some g) in Hi. rewrite J3, nth_error_map in Hi.
    destruct (nth_error data i) as [xs|] eqn:Hx; cbn [option_map] in Hi; [|discriminate]. injection Hi as <-.
    exists (dfast (N:=NumR lg) sh xs v). split; [|now apply Sg]. apply dfast_eq; [congruence|apply (cv_pos _ _ J1)|exact Hv'].
  - intros accum Hl. change (length accum = length (grp s)) in Hl. rewrite J3, map_length in Hl. eexists. split; [now apply (slave_score_ok (N:=NumR lg) dl (HzR lg) sh data s v accum)|].
    now apply (added_dfast (N:=NumR lg)).
Qed.
Print Assumptions C35_dpd_cache_follows_shared_partial.

(** A shared and a mixture that start empty meet the hypotheses; the value 5 enters through the
    shared, is used twice, leaves one group, which is then removed. *)
Example C35_nonvacuous :
  good_message [] [] [] [] /\ (forall v : Z, (uses [[]] v <= count_occ BinInt.Z.eq_dec [] v)%nat) /\
  jhistory [] [[]]
    [JShared (DAdd 5 (/ 2)); JMix (SAdd 0%nat 5); JMix SAddGroup; JShared (DAdd 5 (/ 3)); JMix (SAdd 1%nat 5);
     JMix (SRem 0%nat 5); JShared (DRem 5); JMix (SRemGroup 0%nat)]
    [5] [[5]].
Proof.
  assert (U : forall l, (forall w, uses [l] w <= count_occ BinInt.Z.eq_dec l w)%nat) by (intros; unfold uses; cbn [concat]; now rewrite app_nil_r).
  split; [|split; [intro v; cbn; lia|]].
  { split; [reflexivity|reflexivity|constructor|intros []|constructor|constructor|reflexivity|unfold short; cbn; lia]. }
  apply jh_add; [discriminate|lra|unfold short; cbn; lia|].
  eapply jh_mix; [apply (ss_add [] [] [] 5)|intro w; apply (U [5])|discriminate|]. cbn [app].
  eapply jh_mix; [apply ss_addg|intro w; apply (U [5])|discriminate|]. cbn [app].
  apply jh_add; [discriminate|lra|unfold short; cbn; lia|].
  eapply jh_mix; [apply (ss_add [[5]] [] [] 5)|intro w; apply (U [5; 5])|discriminate|]. cbn [app].
  eapply jh_mix; [apply (ss_rem [] [] 5 [] [[5]])|intro w; unfold uses; cbn [concat app count_occ]; repeat destruct (BinInt.Z.eq_dec _ _); lia|discriminate|]. cbn [app].
  apply (jh_rem [] 5 [5]); [intro w; apply (U [5])|]. cbn [app].
  eapply jh_mix; [eapply ss_remg, (to_inner [] [] [] [5])|intro w; apply (U [5])|intros i E; now injection E as <-|].
  apply jh_nil.
Qed.

(** The full statement is false: a shared value that no group uses is still cached by init with
    reference count zero.  When it leaves the shared and comes back with another weight, the
    cached score stays the old one: silently, at every debug level. *)
Definition c35_msg : dps_msg R := mk_dps_msg 1%R 1%R [3] [(/ 2)%R] [1].
Lemma c35_good : good_message (dm_values c35_msg) (dm_betas c35_msg) (dm_counts c35_msg) [3].
Proof.
  split; try reflexivity; cbn.
  - repeat constructor. intros [].
  - intros [H|[]]. discriminate.
  - repeat constructor. lra.
  - repeat constructor; lia.
  - unfold short. cbn. lia.
Qed.
Lemma c35_load lg dl : exists sh, dps_load (N:=NumR lg) dl c35_msg = Ok sh /\ counts_values sh [3] /\ dp_alpha sh = 1%R /\
  dp_beta0 sh = (/ 2)%R /\ dp_betas sh !! 3 = Some (/ 2)%R.
Proof.
  destruct (load_ok lg dl c35_msg [3] c35_good) as [A _]. destruct A as (sh & E & G & _ & G2 & G3 & _ & G5 & _); [cbn; lra|].
  exists sh. split; [exact E|]. split; [exact G|]. split; [exact G2|]. split; [|apply G5; now left].
  rewrite G3. cbn. rewrite Rmax_right; lra.
Qed.
Lemma c35_known (sh : dpd_shared R) : known_data sh [[]].
Proof. apply List.Forall_cons; [apply drawn_nil|apply List.Forall_nil]. Qed.

Theorem C35_dpd_cache_stale_refuted : exists m l0 ops l,
  good_message (dm_values m) (dm_betas m) (dm_counts m) l0 /\ jhistory l0 [[]] ops l [[]] /\ In 3 l /\
  forall lg dl garbage, let S := dpd_vscorer (N:=NumR lg) in
  exists sh0 s0 sh (s : slave S) x y, dps_load (N:=NumR lg) dl m = Ok sh0 /\ (0 < dp_alpha sh0)%R /\ (0 < dp_beta0 sh0)%R /\
  slave_init S dl sh0 (mk_slave (S:=S) [c_init (DPD R) sh0] garbage) = Ok s0 /\
  joint_run (N:=NumR lg) dl sh0 s0 ops = Ok (sh, s) /\ sl_groups s = [c_init (DPD R) sh0] /\
  slave_score_value_group S dl sh s 0 3 = Ok x /\
  dpd_score_value (N:=NumR lg) dl sh (c_init (DPD R) sh0) 3 = Ok y /\ x <> y.
Proof.
  exists c35_msg, [3], [JShared (DRem 3); JShared (DAdd 3 (/ 4))], [3]. split; [apply c35_good|]. split; [|split; [now left|]].
  { apply (jh_rem [] 3 []); [intro w; cbn; lia|]. apply jh_add; [discriminate|lra|unfold short; cbn; lia|]. apply jh_nil. }
  intros lg dl garbage S. destruct (c35_load lg dl) as (sh0 & E & CV & Al & B0 & B3).
  destruct (start_data (N:=NumR lg) dl sh0 [[]] garbage (c35_known sh0)) as (s0 & E0 & G0 & I0 & H0 & _); [intro v; change (0 < 4294967296); lia|].
  destruct s0 as [gs0 t0]. unfold grp, vst in *. cbn [sl_groups sl_vs] in *. subst gs0.
  destruct (dps_remove_ok lg dl sh0 [] 3 CV) as (sh1 & E1 & CV1 & _ & Al1 & D1); [discriminate|lra|].
  destruct D1 as [([] & _)|(_ & b & Eb & C1 & C2)]. rewrite B3 in Eb. injection Eb as <-.
  assert (B01 : dp_beta0 sh1 = 1%R) by (rewrite C1, B0, Rmin_left; lra).
  destruct (dps_add_new lg dl sh1 [] 3 (/ 4) CV1) as (E2 & CV2 & _); [intros []|discriminate|unfold short; cbn; lia|lra|lra|].
  match type of E2 with _ = Ok ?x => set (sh2 := x) in * end.
  exists sh0, (mk_slave (S:=S) [dpd_stat []] t0), sh2, (mk_slave (S:=S) [dpd_stat []] t0), (ln (/ 2)), (ln (/ 4)).
  split; [exact E|]. split; [lra|]. split; [lra|]. split; [exact E0|].
  split. { cbn [joint_run dps_run1]. rewrite E1. cbn [obind]. rewrite E2. reflexivity. }
  split; [reflexivity|].
  assert (K2 : dp_betas sh2 !! 3 = Some (/ 4)%R) by (cbn [sh2 dp_betas]; rewrite lookup_insert, B01; f_equal; lra).
  split; [|split].
  - unfold slave_score_value_group. cbn [sl_groups sl_vs length]. rewrite dassert_at_true by reflexivity. cbn [obind].
    cbn [vs_score_group S dpd_vscorer]. unfold dpd_vs_score_group.
    assert (Hs : exists r, dpv_scores t0 !! 3 = Some (r, [ln (/ 2)])).
    { destruct (dpv_scores t0 !! 3) as [[r z]|] eqn:Ez; [|exfalso; apply (proj2 (H0 3)); [congruence|exact Ez]].
      exists r. destruct (vi_entry _ _ _ I0 _ _ _ Ez) as (b & Eb & -> & _). rewrite B3 in Eb. injection Eb as <-.
      cbn [map]. unfold ent. cbn [nlog nadd nmul nof NumR]. rewrite Al. change (zcount [] 3) with 0. now replace (1 * / 2 + 0)%R with (/ 2)%R by lra. }
    destruct Hs as [r Hs].
    rewrite (valid_ok dl sh2 [[]]); [|reflexivity|now rewrite (vi_shift _ _ _ I0)|].
    + cbn [obind]. unfold sp_contains. rewrite Hs. rewrite (sp_get_some _ _ _ _ Hs). cbn [obind snd]. rewrite (vi_shift _ _ _ I0). cbn [map vget nth_error].
      cbn [obind]. f_equal. unfold shf. cbn [nsub nlog nadd nof NumR length]. rewrite Al. cbn. rewrite Rplus_0_r, ln_1. lra.
    + intros v r' z Ez. destruct (vi_entry _ _ _ I0 _ _ _ Ez) as (b & Eb & -> & _). split; [|reflexivity].
      assert (In v [3]) as [<-|[]] by (apply (cv_keys _ _ CV); congruence). congruence.
  - change (c_init (DPD R) sh0) with (dpd_stat []). rewrite dfast_eq; [| |apply (cv_pos _ _ CV2)|left; split; [discriminate|congruence]].
    + f_equal. unfold dfast. cbn [Z.eqb]. change (3 =? OTHER) with false. cbn match. rewrite K2. unfold ent, shf. cbn [nsub nlog nadd nmul nof NumR].
      cbn [sh2 dp_alpha]. rewrite Al1, Al. cbn. rewrite !Rplus_0_r, Rmult_1_l, ln_1. lra.
    + cbn [sh2 dp_alpha]. lra.
  - intro X. apply ln_inv in X; lra.
Qed.
Print Assumptions C35_dpd_cache_stale_refuted.

(** And while the value is gone, adding a group looks up its weight: undefined behaviour in a
    release build, a failed assertion in a debug build. *)
Lemma each_bad {V} (f : Z -> V -> outcome V) bad l m : (forall k v, In (k, v) l -> f k v = bad) -> bad = UB \/ bad = Fail ->
  l <> [] -> each_entry f l m = match bad with UB => UB | _ => Fail end.
Proof. intros H Hb Hl. destruct l as [|[k v] l]; [congruence|]. cbn [each_entry]. rewrite (H k v) by now left. now destruct Hb; subst. Qed.

Theorem C35_dpd_lookup_undefined_refuted : exists m l0 ops l data,
  good_message (dm_values m) (dm_betas m) (dm_counts m) l0 /\ jhistory l0 [[]] ops l data /\
  forall lg dl garbage, let S := dpd_vscorer (N:=NumR lg) in
  exists sh0 s0, dps_load (N:=NumR lg) dl m = Ok sh0 /\ (0 < dp_alpha sh0)%R /\ (0 < dp_beta0 sh0)%R /\
  slave_init S dl sh0 (mk_slave (S:=S) [c_init (DPD R) sh0] garbage) = Ok s0 /\
  joint_run (N:=NumR lg) dl sh0 s0 ops = (if (dl =? 0)%nat then UB else Fail).
Proof.
  exists c35_msg, [3], [JShared (DRem 3); JMix SAddGroup], [], [[]; []]. split; [apply c35_good|]. split.
  { apply (jh_rem [] 3 []); [intro w; cbn; lia|]. eapply jh_mix; [apply ss_addg|intro w; cbn; lia|discriminate|]. apply jh_nil. }
  intros lg dl garbage S. destruct (c35_load lg dl) as (sh0 & E & CV & Al & B0 & B3).
  destruct (start_data (N:=NumR lg) dl sh0 [[]] garbage (c35_known sh0)) as (s0 & E0 & G0 & I0 & H0 & _); [intro v; change (0 < 4294967296); lia|].
  destruct (dps_remove_ok lg dl sh0 [] 3 CV) as (sh1 & E1 & CV1 & _ & Al1 & D1); [discriminate|lra|].
  exists sh0, s0. split; [exact E|]. split; [lra|]. split; [lra|]. split; [exact E0|].
  cbn [joint_run dps_run1]. rewrite E1. cbn [obind slave_run1]. unfold slave_add_group. cbn [vs_add_group dpd_vscorer S]. unfold dpd_vs_add_group, map_each.
  rewrite (each_bad _ (if (dl =? 0)%nat then UB else Fail)).
  - destruct (dl =? 0)%nat; reflexivity.
  - intros k v _. destruct (dp_betas sh1 !! k) as [b|] eqn:Eb.
    + exfalso. assert (In k []) as [] by (apply (cv_keys _ _ CV1); congruence).
    + unfold sp_get, sp_find. rewrite Eb. unfold dassert_at. destruct dl; reflexivity.
  - destruct (dl =? 0)%nat; auto.
  - intro X. assert (has (vst s0) 3) as Y by (apply H0; congruence). apply Y.
    unfold vst. apply map_to_list_empty_iff in X. now rewrite X.
Qed.
Print Assumptions C35_dpd_lookup_undefined_refuted.
