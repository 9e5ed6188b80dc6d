(** Properties C32, C33, C36: MixtureSlave with the caching value scorers of the component
    models, compared with the same slave without any cache (SmallMixture of the same model,
    whose value scorer calls Group::score_value each time). *)
From Coq Require Import Reals Lra.
From Verif.spec Require Import GroupSpec SlaveSpec LgammaSpec.
From Verif.model Require Import Base Num NumR NumTerm Component Slave SlaveRun BB BNB GP NICH DD.
From Verif.proof Require Import LgammaProof SlaveProof SlaveInst DDSlave SlaveScore.

(** A fresh init from the current groups, whatever the caches held, gives back this very state. *)
Definition caches_fresh {C F} {N : Num F} (S : vscorer C F) dl sh (s : slave S) : Prop :=
  forall garbage, slave_init S dl sh (mk_slave (sl_groups s) garbage) = Ok s.
(** Both slaves give the same scores of value [v]: per group, and accumulated in a buffer. *)
Definition same_scores {C F} {N : Num F} (S T : vscorer C F) dl sh (s : slave S) (q : slave T) v : Prop :=
  (forall i, i < length (sl_groups s) -> slave_score_value_group S dl sh s i v = slave_score_value_group T dl sh q i v) /\
  (forall accum, length accum = length (sl_groups s) ->
     slave_score_value S dl sh s v accum = slave_score_value T dl sh q v accum).

(** ** C32.  Every debug level, shared, initial groups, garbage in the caches before init, and
    every history of calls: the cached slave fails (or is undefined) exactly when the cacheless
    one is, and otherwise holds the same groups, fresh caches and the same scores.  In every
    arithmetic, so bit for bit in floating point. *)
Theorem C32_bb_cache_coherent : forall (F : Type) (N : Num F) dl (sh : bb_shared F) gs garbage ops,
  let S := bb_vscorer (F:=F) in let T := small_vscorer (C:=BB F) (fun _ sh g v => Ok (bb_score_value sh g v)) in
  agrees (fun s q => sl_groups s = sl_groups q /\ caches_fresh S dl sh s /\ forall v, same_scores S T dl sh s q v)
    (slave_start S dl sh gs garbage ops) (slave_start T dl sh gs tt ops).
Proof.
  intros F N dl sh gs garbage ops S T.
  eapply agrees_imp; [|apply (start_twin S dl sh any any _ _ (bb_coherent dl sh) _ gs garbage tt ops)].
  - intros s q Ht. destruct (twin_fresh S dl sh any any _ _ (bb_coherent dl sh) _ s q Ht) as [E1 E2].
    split; [exact E1|]. split; [exact E2|]. intro v.
    apply (twin_scores S dl sh any any _ _ (bb_coherent dl sh) _ s q v Ht I). apply Forall_forall. reflexivity.
  - apply Forall_forall. intros; exact I.
Qed.
Print Assumptions C32_bb_cache_coherent.

Theorem C32_gp_cache_coherent : forall (F : Type) (N : Num F) dl (sh : gp_shared F) gs garbage ops,
  let S := gp_vscorer (F:=F) in let T := small_vscorer (C:=GP F) (fun _ sh g v => Ok (gp_score_value sh g v)) in
  agrees (fun s q => sl_groups s = sl_groups q /\ caches_fresh S dl sh s /\ forall v, same_scores S T dl sh s q v)
    (slave_start S dl sh gs garbage ops) (slave_start T dl sh gs tt ops).
Proof.
  intros F N dl sh gs garbage ops S T.
  eapply agrees_imp; [|apply (start_twin S dl sh any any _ _ (gp_coherent dl sh) _ gs garbage tt ops)].
  - intros s q Ht. destruct (twin_fresh S dl sh any any _ _ (gp_coherent dl sh) _ s q Ht) as [E1 E2].
    split; [exact E1|]. split; [exact E2|]. intro v.
    apply (twin_scores S dl sh any any _ _ (gp_coherent dl sh) _ s q v Ht I). apply Forall_forall. reflexivity.
  - apply Forall_forall. intros; exact I.
Qed.
Print Assumptions C32_gp_cache_coherent.

Theorem C32_nich_cache_coherent : forall (F : Type) (N : Num F) dl (sh : nich_shared F) gs garbage ops,
  let S := nich_vscorer (F:=F) in let T := small_vscorer (C:=NICH F) (fun _ sh g v => Ok (nich_score_value sh g v)) in
  agrees (fun s q => sl_groups s = sl_groups q /\ caches_fresh S dl sh s /\ forall v, same_scores S T dl sh s q v)
    (slave_start S dl sh gs garbage ops) (slave_start T dl sh gs tt ops).
Proof.
  intros F N dl sh gs garbage ops S T.
  eapply agrees_imp; [|apply (start_twin S dl sh any any _ _ (nich_coherent dl sh) _ gs garbage tt ops)].
  - intros s q Ht. destruct (twin_fresh S dl sh any any _ _ (nich_coherent dl sh) _ s q Ht) as [E1 E2].
    split; [exact E1|]. split; [exact E2|]. intro v.
    apply (twin_scores S dl sh any any _ _ (nich_coherent dl sh) _ s q v Ht I). apply Forall_forall. reflexivity.
  - apply Forall_forall. intros; exact I.
Qed.
Print Assumptions C32_nich_cache_coherent.

(** BNB caches the Scorer, whose formula differs from Group::score_value; the cached formula also
    writes beta + alpha for alpha + beta.  So: bit for bit the Scorer wherever addition commutes
    (as IEEE addition does), and Group::score_value in exact arithmetic. *)
Theorem C32_bnb_cache_coherent : forall (F : Type) (N : Num F) dl (sh : bnb_shared F) gs garbage ops,
  let S := bnb_vscorer (F:=F) in
  let T := small_vscorer (C:=BNB F) (fun _ sh g v => Ok (bnb_scorer_eval (bnb_scorer_init sh g) v)) in
  agrees (fun s q => sl_groups s = sl_groups q /\ caches_fresh S dl sh s /\
      ((forall x y : F, nadd x y = nadd y x) -> forall v, same_scores S T dl sh s q v))
    (slave_start S dl sh gs garbage ops) (slave_start T dl sh gs tt ops).
Proof.
  intros F N dl sh gs garbage ops S T.
  eapply agrees_imp; [|apply (start_twin S dl sh any any _ _ (bnb_coherent dl sh) _ gs garbage tt ops)].
  - intros s q Ht. destruct (twin_fresh S dl sh any any _ _ (bnb_coherent dl sh) _ s q Ht) as [E1 E2].
    split; [exact E1|]. split; [exact E2|]. intros Hcomm v.
    apply (twin_scores S dl sh any any _ _ (bnb_coherent dl sh) _ s q v Ht I). apply Forall_forall.
    intros g _. unfold bnb_fast, bnb_scorer_eval. cbn zeta. now rewrite (Hcomm (bns_alpha _)).
  - apply Forall_forall. intros; exact I.
Qed.
Print Assumptions C32_bnb_cache_coherent.

Theorem C32_bnb_cache_exact : forall lg dl (sh : bnb_shared R) gs garbage ops,
  let S := bnb_vscorer (N:=NumR lg) in
  let T := small_vscorer (N:=NumR lg) (C:=BNB R) (fun _ sh g v => Ok (bnb_score_value (N:=NumR lg) sh g v)) in
  agrees (fun s q => sl_groups s = sl_groups q /\ forall v, same_scores (N:=NumR lg) S T dl sh s q v)
    (slave_start S dl sh gs garbage ops) (slave_start T dl sh gs tt ops).
Proof.
  intros lg dl sh gs garbage ops S T.
  pose proof (bnb_coherent (N:=NumR lg) dl sh) as Hc.
  eapply agrees_imp; [|apply (start_twin (N:=NumR lg) S dl sh any any _ _ Hc _ gs garbage tt ops)].
  - intros s q Ht. destruct (twin_fresh (N:=NumR lg) S dl sh any any _ _ Hc _ s q Ht) as [E1 _].
    split; [exact E1|]. intro v.
    apply (twin_scores (N:=NumR lg) S dl sh any any _ _ Hc _ s q v Ht I). apply Forall_forall.
    intros g _. now rewrite bnb_fast_eq.
  - apply Forall_forall. intros; exact I.
Qed.
Print Assumptions C32_bnb_cache_exact.

(** A history that adds a group, fills it, removes the first group (moving the last one into its
    place) and takes a value out of the moved group. *)
Example C32_nonvacuous :
  let sh := mk_bb_shared (TLit 1 1) (TLit 2 1) in
  match slave_start (bb_vscorer (N:=NumTerm)) 2 sh [mk_bb 3 1; mk_bb 0 2] (mk_bb_vs [TOf 7; TOf 8; TOf 9] [])
    [SAddGroup; SAdd 2 true; SAdd 2 false; SAdd 1 true; SRemGroup 0; SRem 0 false] with
  | Ok s => sl_groups s = [mk_bb 1 0; mk_bb 1 2] /\
      slave_score_value_group (bb_vscorer (N:=NumTerm)) 2 sh s 0 true =
        Ok (TLog (TDiv (TAdd (TLit 1 1) (TOf 1)) (TAdd (TAdd (TLit 1 1) (TOf 1)) (TAdd (TLit 2 1) (TOf 0)))))
  | _ => False
  end.
Proof. vm_compute. split; reflexivity. Qed.
Example C32_bad_history :
  slave_start (bb_vscorer (N:=NumTerm)) 2 (mk_bb_shared (TLit 1 1) (TLit 2 1)) [mk_bb 3 1] (mk_bb_vs [] []) [SRemGroup 1] = Fail.
Proof. reflexivity. Qed.

(** ** C33: Dirichlet-discrete.  The table never goes stale, in every arithmetic: the initial
    groups only need counts of the shared's dimension. *)
Theorem C33_dd_cache_fresh : forall (F : Type) (N : Num F) dl (sh : dd_shared F) gs garbage ops,
  List.Forall (fun g => length (dd_counts g) = dd_dim sh) gs ->
  let S := dd_vscorer (F:=F) in let T := small_vscorer (C:=DD F) dd_score_value in
  agrees (fun s q => sl_groups s = sl_groups q /\ caches_fresh S dl sh s)
    (slave_start S dl sh gs garbage ops) (slave_start T dl sh gs tt ops).
Proof.
  intros F N dl sh gs garbage ops HW S T. pose proof (dd_coherent sh dl) as Hc.
  eapply agrees_imp; [|apply (start_twin S dl sh (dd_okg sh) (dd_okv sh) _ _ Hc _ gs garbage tt ops HW)].
  intros s q Ht. exact (twin_fresh S dl sh _ _ _ _ Hc _ s q Ht).
Qed.
Print Assumptions C33_dd_cache_fresh.

(** In exact arithmetic the table gives Group::score_value, as long as the counts are consistent
    (as add_value and remove_value keep them; merge does not, see C21) and not negative. *)
Theorem C33_dd_scores_current : forall lg dl (sh : dd_shared R) gs garbage ops,
  List.Forall (fun a => 0 < a)%R (dd_alphas sh) ->
  List.Forall (fun g => length (dd_counts g) = dd_dim sh /\ dd_count_sum g = zsum (dd_counts g)) gs ->
  let S := dd_vscorer (N:=NumR lg) in let T := small_vscorer (N:=NumR lg) (C:=DD R) (dd_score_value (N:=NumR lg)) in
  agrees (fun (s : slave S) (q : slave T) => sl_groups s = sl_groups q /\
      (List.Forall (fun g => List.Forall (fun c => 0 <= c)%Z (dd_counts g)) (sl_groups s) ->
       forall v, (0 <= v < Z.of_nat (dd_dim sh))%Z -> same_scores (N:=NumR lg) S T dl sh s q v))
    (slave_start S dl sh gs garbage ops) (slave_start T dl sh gs tt ops).
Proof.
  intros lg dl sh gs garbage ops Ha HW S T. pose proof (dd_coherent_sums lg sh dl) as Hc.
  eapply agrees_imp; [|apply (start_twin (N:=NumR lg) S dl sh (dd_sums sh) (dd_okv sh) _ _ Hc _ gs garbage tt ops HW)].
  intros s q Ht. destruct (twin_fresh (N:=NumR lg) S dl sh _ _ _ _ Hc _ s q Ht) as [E1 _].
  split; [exact E1|]. intros Hn v Hv.
  apply (twin_scores (N:=NumR lg) S dl sh _ _ _ _ Hc _ s q v Ht Hv). destruct Ht as [[HWs _] _]. rewrite E1 in Hn, HWs.
  rewrite Forall_forall in Hn, HWs |- *. intros g Hg. apply dd_fast_eq; auto.
Qed.
Print Assumptions C33_dd_scores_current.

Example C33_nonvacuous :
  let a k := TLit k 1 in
  match slave_start (dd_vscorer (N:=NumTerm)) 1 (mk_dd_shared [a 1; a 2; a 3]%Z) [mk_dd [1; 0; 1]%Z 2%Z] (mk_dd_vs None [[TOf 5]] [])
    [SAddGroup; SAdd 1 2%Z; SAdd 1 0%Z; SRem 0 2%Z; SAddGroup; SRemGroup 0] with
  | Ok s => sl_groups s = [mk_dd [0; 0; 0]%Z 0; mk_dd [1; 0; 1]%Z 2] /\
      slave_score_value_group (dd_vscorer (N:=NumTerm)) 1 (mk_dd_shared [a 1; a 2; a 3]%Z) s 1 2%Z =
        Ok (TSub (TLog (TAdd (a 3) (TOf 1))) (TLog (TAdd (TAdd (TAdd (TAdd (TOf 0) (a 1)) (a 2)) (a 3)) (TOf 2))))%Z
  | _ => False
  end.
Proof. vm_compute. split; reflexivity. Qed.

(** ** C36: score_value adds score_value_group of group i to entry i, in every arithmetic, for the
    caching scorers after any history and for the cacheless scorer of any component whose
    score_value is defined.  The DPD scorer is in DPDSlaveProps. *)
Theorem C36_score_value_accumulates : forall (F : Type) (N : Num F) dl,
  (forall (sh : bb_shared F) gs garbage ops s v accum,
    slave_start bb_vscorer dl sh gs garbage ops = Ok s -> length accum = length (sl_groups s) ->
    exists r, slave_score_value bb_vscorer dl sh s v accum = Ok r /\
      added nadd accum r (fun i => slave_score_value_group bb_vscorer dl sh s i v)) /\
  (forall (sh : gp_shared F) gs garbage ops s v accum,
    slave_start gp_vscorer dl sh gs garbage ops = Ok s -> length accum = length (sl_groups s) ->
    exists r, slave_score_value gp_vscorer dl sh s v accum = Ok r /\
      added nadd accum r (fun i => slave_score_value_group gp_vscorer dl sh s i v)) /\
  (forall (sh : bnb_shared F) gs garbage ops s v accum,
    slave_start bnb_vscorer dl sh gs garbage ops = Ok s -> length accum = length (sl_groups s) ->
    exists r, slave_score_value bnb_vscorer dl sh s v accum = Ok r /\
      added nadd accum r (fun i => slave_score_value_group bnb_vscorer dl sh s i v)) /\
  (forall (sh : nich_shared F) gs garbage ops s v accum,
    slave_start nich_vscorer dl sh gs garbage ops = Ok s -> length accum = length (sl_groups s) ->
    exists r, slave_score_value nich_vscorer dl sh s v accum = Ok r /\
      added nadd accum r (fun i => slave_score_value_group nich_vscorer dl sh s i v)) /\
  (forall (sh : dd_shared F) gs garbage ops s v accum,
    List.Forall (fun g => length (dd_counts g) = dd_dim sh) gs ->
    slave_start dd_vscorer dl sh gs garbage ops = Ok s -> length accum = length (sl_groups s) ->
    (0 <= v < Z.of_nat (dd_dim sh))%Z ->
    exists r, slave_score_value dd_vscorer dl sh s v accum = Ok r /\
      added nadd accum r (fun i => slave_score_value_group dd_vscorer dl sh s i v)) /\
  (forall (C : component) (score : shared_t C -> group_t C -> value_t C -> F) sh (gs : list (group_t C)) v accum,
    let T := small_vscorer (C:=C) (fun _ sh g v => Ok (score sh g v)) in
    length accum = length gs ->
    exists r, slave_score_value T dl sh (mk_slave (S:=T) gs tt) v accum = Ok r /\
      added nadd accum r (fun i => slave_score_value_group T dl sh (mk_slave (S:=T) gs tt) i v)).
Proof.
  intros F N dl. assert (A : forall {G : Type} (gs : list G), Forall any gs) by (intros; apply Forall_forall; intros; exact I).
  split; [|split; [|split; [|split; [|split]]]].
  - intros sh gs t ops s v accum E L. exact (start_added (bb_vscorer (F:=F)) dl sh any any _ _ (bb_coherent dl sh) (fun _ _ _ _ => UB) gs t ops s v accum (A _ _) E I L).
  - intros sh gs t ops s v accum E L. exact (start_added (gp_vscorer (F:=F)) dl sh any any _ _ (gp_coherent dl sh) (fun _ _ _ _ => UB) gs t ops s v accum (A _ _) E I L).
  - intros sh gs t ops s v accum E L. exact (start_added (bnb_vscorer (F:=F)) dl sh any any _ _ (bnb_coherent dl sh) (fun _ _ _ _ => UB) gs t ops s v accum (A _ _) E I L).
  - intros sh gs t ops s v accum E L. exact (start_added (nich_vscorer (F:=F)) dl sh any any _ _ (nich_coherent dl sh) (fun _ _ _ _ => UB) gs t ops s v accum (A _ _) E I L).
  - intros sh gs t ops s v accum W E L Hv.
    exact (start_added (dd_vscorer (F:=F)) dl sh _ _ _ _ (dd_coherent sh dl) (fun _ _ _ _ => UB) gs t ops s v accum W E Hv L).
  - intros C score sh gs v accum T L. eexists. split.
    + apply (slow_score dl sh (score sh) _ (mk_slave (S:=T) gs tt) v accum L). apply Forall_forall. reflexivity.
    + split; [apply col_add_length; cbn [sl_groups]; now rewrite map_length|]. intros i x Hx.
      destruct (VectorProof.vget_some gs i) as (g & Hg & _); [apply nth_lt in Hx; lia|].
      exists (score sh g v). split; [apply (slow_group dl sh _ (mk_slave (S:=T) gs tt) i g v Hg)|].
      apply nth_col_add; [exact Hx|]. exact (map_nth_error (fun g => score sh g v) _ _ Hg).
Qed.
Print Assumptions C36_score_value_accumulates.
