(** Properties C76 and C77: threads sharing the table of Stirling rows. *)
From Coq Require Import Reals Lra.
From Verif.model Require Import Base VectorMath Stirling StirlingThreads.
From Verif.spec Require Import StirlingSpec ThreadSpec.
From Verif.proof Require Import BaseProof StirlingProof StirlingThreadsProof.
From Verif.props Require Import StirlingProps.
Local Open Scope nat_scope.

(** Every schedule, every allocation failure: no two threads are ever about to touch the
    table with one of them writing. *)
Theorem C76_no_data_race : forall calls cache es w,
  wrun es (enter calls cache) = Ok w -> ~ data_race w.
Proof. intros calls cache es w H. apply lock_no_race. exact (wrun_lock _ _ _ (enter_lock _ _) H). Qed.
Print Assumptions C76_no_data_race.

Lemma threads_of calls cache w (N : forall i t', nth_error (w_threads w) i = Some t' ->
    exists t, nth_error (w_threads (enter calls cache)) i = Some t /\ t_n t' = t_n t) i t c :
  nth_error (w_threads w) i = Some t -> nth_error calls i = Some c -> t_n t = fst c.
Proof.
  intros Ht Hc. destruct (N _ _ Ht) as (t0 & E0 & ->). cbn in E0. rewrite nth_error_map, Hc in E0.
  injection E0 as <-. reflexivity.
Qed.

(** Every schedule: nothing undefined happens, and a thread that has returned holds its row. *)
Theorem C76_rows_exact : forall calls es,
  Forall (fun e => e_resize_ok e = true) es ->
  exists w, wrun es (enter calls []) = Ok w /\
    forall i t c, nth_error (w_threads w) i = Some t -> nth_error calls i = Some c ->
      t_pc t = Done -> exact_row (fst c) (t_buf t).
Proof.
  intros calls es HF.
  destruct (wrun_data es (enter calls (rows 0)) HF (enter_data calls 0)) as (w & E & (_ & HT & _) & _ & N & _).
  exists w. split; [exact E |]. intros i t c Ht Hc Hd.
  destruct (HT _ _ Ht) as [_ HD]. rewrite (HD Hd), (threads_of calls _ w N i t c Ht Hc). apply lrow_exact.
Qed.
Print Assumptions C76_rows_exact.

(** Under every fair schedule all calls return, each with its row. *)
Theorem C76_fair_schedules_finish : forall calls s,
  fair s (length calls) -> (forall n, e_push_ok (s n) = true /\ e_resize_ok (s n) = true) ->
  exists n w, wrun (upto s n) (enter calls []) = Ok w /\
    forall i c, nth_error calls i = Some c ->
      exists t, nth_error (w_threads w) i = Some t /\ t_pc t = Done /\ exact_row (fst c) (t_buf t).
Proof.
  intros calls s Hf Hs.
  destruct (fair_ends s (length calls) (fun n => proj2 (Hs n)) Hf _ 0 (enter calls (rows 0))
    (Nat.lt_succ_diag_r _) (enter_data calls 0)) as (n & w & E & (HI & HT & HC) & HE & N).
  { cbn. apply map_length. }
  exists n, w. split; [exact E |]. intros i c Hc.
  assert (length (w_threads w) = length calls) as HL.
  { destruct (wrun_data (upto s n) (enter calls (rows 0))) as (w' & E' & _ & L' & _).
    - apply Forall_forall. intros e He. apply in_map_iff in He. destruct He as (k & <- & _). apply Hs.
    - apply enter_data.
    - unfold upto in E'. rewrite E in E'. injection E' as <-. rewrite L'. cbn. apply map_length. }
  destruct (nth_error (w_threads w) i) as [t |] eqn:Ht.
  2: { apply nth_error_None in Ht. assert (i < length calls) by (apply nth_error_Some; congruence). lia. }
  exists t. split; [reflexivity |].
  pose proof (proj1 (Forall_forall _ _) HE t (nth_error_In _ _ Ht)) as [Hd | Hd].
  - split; [exact Hd |]. destruct (HT _ _ Ht) as [_ HD].
    rewrite (HD Hd), (threads_of calls _ w N i t c Ht Hc). apply lrow_exact.
  - exfalso. refine (proj1 (Forall_forall _ _) (wrun_not_thrown _ _ _ _ _ E) t (nth_error_In _ _ Ht) Hd).
    + apply Forall_forall. intros e He. apply in_map_iff in He. destruct He as (k & <- & _). apply Hs.
    + cbn. apply Forall_forall. intros x Hx. apply in_map_iff in Hx. destruct Hx as (k & <- & _). discriminate.
Qed.
Print Assumptions C76_fair_schedules_finish.

(** Whatever push_back does, calls made afterwards by other threads are right.  Missing:
    the same when resize fails; see the two refutations below. *)
Theorem C77_calls_after_bad_alloc_partial : forall calls es w calls' es',
  Forall (fun e => e_resize_ok e = true) es -> Forall (fun e => e_resize_ok e = true) es' ->
  wrun es (enter calls []) = Ok w -> Forall ended (w_threads w) ->
  exists w', wrun es' (enter calls' (w_cache w)) = Ok w' /\
    forall i t c, nth_error (w_threads w') i = Some t -> nth_error calls' i = Some c ->
      t_pc t = Done -> exact_row (fst c) (t_buf t).
Proof.
  intros calls es w calls' es' HF HF' HW HE.
  destruct (wrun_data es (enter calls (rows 0)) HF (enter_data calls 0)) as (w1 & E & (HI & _ & HC) & _).
  change (rows 0) with (@nil (list ext)) in E. rewrite HW in E. injection E as <-.
  assert (exists m, w_cache w = rows m) as [m Em].
  { destruct (w_lock w) as [j |] eqn:L; [| exact HC]. destruct HC as (t & Ht & HL).
    pose proof (proj1 (Forall_forall _ _) HE t (nth_error_In _ _ Ht)) as [Hd | Hd];
      unfold local in HL; rewrite Hd in HL; contradiction. }
  rewrite Em.
  destruct (wrun_data es' (enter calls' (rows m)) HF' (enter_data calls' m)) as (w' & E' & (_ & HT & _) & _ & N & _).
  exists w'. split; [exact E' |]. intros i t c Ht Hc Hd.
  destruct (HT _ _ Ht) as [_ HD]. rewrite (HD Hd), (threads_of calls' _ w' N i t c Ht Hc). apply lrow_exact.
Qed.
Print Assumptions C77_calls_after_bad_alloc_partial.

Definition go (i : nat) : event := {| e_tid := i; e_push_ok := true; e_resize_ok := true |}.
Definition no_resize (i : nat) : event := {| e_tid := i; e_push_ok := true; e_resize_ok := false |}.
Definition no_push (i : nat) : event := {| e_tid := i; e_push_ok := false; e_resize_ok := true |}.

(** One call for row 1 builds row 0 and then fails to allocate row 1. *)
Definition failing_call : list event := repeat (go 0) 8 ++ [no_resize 0].

(** Running a concrete schedule without unfolding real numbers. *)
Local Ltac run := lazy -[Rplus IZR exp ln INR Rlt_dec Req_EM_T]; reflexivity.
Definition after_failure : world :=
  {| w_lock := None; w_cache := [[Fin 0%R]; []];
     w_threads := [{| t_n := 1; t_buf := [Fin 0%R; Fin 0%R]; t_pc := Thrown |}] |}.
Lemma failing_call_run : wrun failing_call (enter [(1, [])] []) = Ok after_failure.
Proof. run. Qed.

(** A later call for row 1, with no failure, returns normally but leaves the caller's
    vector as it was. *)
Theorem C77_row_after_bad_alloc_refuted :
  exists w w' t, wrun failing_call (enter [(1, [])] []) = Ok w /\ Forall ended (w_threads w) /\
    wrun (repeat (go 0) 4) (enter [(1, [Fin 7%R; Fin 7%R])] (w_cache w)) = Ok w' /\
    w_threads w' = [t] /\ t_pc t = Done /\ t_buf t = [Fin 7%R; Fin 7%R] /\ ~ exact_row 1 (t_buf t).
Proof.
  exists after_failure.
  exists {| w_lock := None; w_cache := [[Fin 0%R]; []];
     w_threads := [{| t_n := 1; t_buf := [Fin 7%R; Fin 7%R]; t_pc := Done |}] |}.
  exists {| t_n := 1; t_buf := [Fin 7%R; Fin 7%R]; t_pc := Done |}.
  split; [exact failing_call_run |]. split; [repeat constructor; now right |].
  split; [run |]. split; [reflexivity |]. split; [reflexivity |]. split; [reflexivity |].
  intros (c & (HL & HP) & F). cbn in F.
  inversion F as [| ? c0 ? cs H0 F1]; subst. inversion F1 as [| ? c1 ? cs' H1 F2]; subst.
  inversion F2; subst. specialize (HP 1%R). pose proof (HP) as HP1.
  destruct H0 as [[P0 E0] | [_ E0]]; [| discriminate E0].
  destruct H1 as [[P1 E1] | [_ E1]]; [| discriminate E1].
  injection E0 as E0. injection E1 as E1.
  assert (c0 = exp 7) as -> by (rewrite E0; symmetry; now apply exp_ln).
  assert (c1 = exp 7) as -> by (rewrite E1; symmetry; now apply exp_ln).
  cbn in HP1. pose proof (exp_ineq1 7). lra.
Qed.
Print Assumptions C77_row_after_bad_alloc_refuted.

(** A later call for row 2 reads past the end of the empty row. *)
Theorem C77_undefined_after_bad_alloc_refuted :
  exists w, wrun failing_call (enter [(1, [])] []) = Ok w /\ Forall ended (w_threads w) /\
    wrun (repeat (go 0) 9) (enter [(2, [])] (w_cache w)) = UB.
Proof. exists after_failure. split; [exact failing_call_run |]. split; [repeat constructor; now right |]. run. Qed.
Print Assumptions C77_undefined_after_bad_alloc_refuted.

(** Two threads asking for rows 2 and 1 in alternation; the second has to wait. *)
Definition alternate (n : nat) : event := go (n mod 2).
Example C76_nonvacuous :
  fair alternate 2 /\
  (exists w a b, wrun (upto alternate 6) (enter [(2, []); (1, [])] []) = Ok w /\
     w_threads w = [a; b] /\ t_pc a = AtResize 0 /\ t_pc b = AtLock /\ w_lock w = Some 0) /\
  ~ data_race (enter [(2, []); (1, [])] []).
Proof.
  split; [| split].
  - intros i n Hi. exists (2 * n + i). split; [lia |]. cbn [alternate go e_tid].
    rewrite Nat.add_comm, Nat.mul_comm, Nat.mod_add by lia. now apply Nat.mod_small.
  - exists {| w_lock := Some 0; w_cache := [[]]; w_threads :=
      [{| t_n := 2; t_buf := [Fin 0%R; Fin 0%R; Fin 0%R]; t_pc := AtResize 0 |};
       {| t_n := 1; t_buf := [Fin 0%R; Fin 0%R]; t_pc := AtLock |}] |}.
    do 2 eexists. split; [run |]. split; [reflexivity |]. repeat split.
  - apply lock_no_race, enter_lock.
Qed.

(** The predicate is not void: without the mutex this state would be a race. *)
Example C76_race_is_possible : data_race
  {| w_lock := None; w_cache := [];
     w_threads := [{| t_n := 1; t_buf := []; t_pc := AtPush |}; {| t_n := 1; t_buf := []; t_pc := AtTest |}] |}.
Proof. exists 0, 1. do 2 eexists. cbn. repeat split; auto. Qed.

(** A failing push_back meets the hypotheses of C77's partial theorem. *)
Example C77_nonvacuous :
  let es := [go 0; go 0; no_push 0] in
  Forall (fun e => e_resize_ok e = true) es /\
  exists w, wrun es (enter [(3, [])] []) = Ok w /\ Forall ended (w_threads w) /\ w_cache w = [].
Proof. split; [repeat constructor |]. 
  exists {| w_lock := None; w_cache := []; w_threads :=
    [{| t_n := 3; t_buf := [Fin 0%R; Fin 0%R; Fin 0%R; Fin 0%R]; t_pc := Thrown |}] |}.
  split; [run |]. split; [repeat constructor; now right | reflexivity].
Qed.
