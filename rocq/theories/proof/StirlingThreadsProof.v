(** Invariants of threads sharing the Stirling cache. *)
From Coq Require Import Reals Lra.
From Verif.model Require Import Base VectorMath Stirling StirlingThreads.
From Verif.spec Require Import ThreadSpec.
From Verif.proof Require Import BaseProof VectorProof StirlingProof.
Local Open Scope nat_scope.

(** *** Mutual exclusion: for every schedule and every allocation failure *)
Definition inside (p : pc) : bool :=
  match p with AtLock | Done | Thrown => false | _ => true end.

Definition lock_inv (w : world) : Prop :=
  forall i t, nth_error (w_threads w) i = Some t -> inside (t_pc t) = true <-> w_lock w = Some i.

Lemma obind_ok {A B} (x : outcome A) (f : A -> outcome B) b :
  obind x f = Ok b -> exists a, x = Ok a /\ f a = Ok b.
Proof. destruct x; cbn; intros H; try discriminate H. eauto. Qed.

Ltac oinv H :=
  repeat match type of H with
  | obind _ _ = Ok _ => let a := fresh "a" in let E := fresh "E" in
      apply obind_ok in H; destruct H as (a & E & H)
  end.

Lemma tstep_lock i e lock cache t l' c' t' :
  (inside (t_pc t) = true <-> lock = Some i) ->
  tstep i e lock cache t = Ok (l', c', t') ->
  (l' = lock \/ (lock = None /\ l' = Some i) \/ (lock = Some i /\ l' = None)) /\
  (inside (t_pc t') = true <-> l' = Some i).
Proof.
  intros HI H. unfold tstep in H.
  set (rel := match lock with Some j => if i =? j then Ok None else UB | None => UB end) in H.
  assert (forall l : option nat, rel = Ok l -> lock = Some i /\ l = None) as Hrel.
  { intros l. unfold rel. destruct lock as [j |]; [| discriminate].
    destruct (Nat.eqb_spec i j); [| discriminate]. intros E. injection E as <-. subst j. auto. }
  clearbody rel.
  assert (forall A (f : option nat -> outcome A) x, obind rel f = Ok x -> lock = Some i /\ f None = Ok x) as Hr.
  { intros A f x E. oinv E. destruct (Hrel _ E0) as [-> ->]. auto. }
  destruct (t_pc t) eqn:Ep; cbn [inside] in HI.
  - destruct lock as [j |]; injection H as <- <- <-.
    + split; [now left | rewrite Ep; cbn [inside]; exact HI].
    + split; [right; now left | cbn; tauto].
  - injection H as <- <- <-. split; [now left |].
    destruct (length cache <=? t_n t); cbn [goto t_pc inside]; exact HI.
  - destruct (e_push_ok e).
    + injection H as <- <- <-. split; [now left | exact HI].
    + apply Hr in H. destruct H as [-> H]. injection H as <- <- <-.
      split; [right; now right | cbn; split; discriminate].
  - destruct (e_resize_ok e).
    + oinv H. injection H as <- <- <-. split; [now left | exact HI].
    + apply Hr in H. destruct H as [-> H]. injection H as <- <- <-.
      split; [right; now right | cbn; split; discriminate].
  - oinv H. injection H as <- <- <-. split; [now left | exact HI].
  - oinv H. injection H as <- <- <-. split; [now left |].
    destruct (1 <? m); cbn [goto t_pc inside]; exact HI.
  - destruct (k <? m); oinv H; injection H as <- <- <-; (split; [now left | exact HI]).
  - oinv H. destruct (k <? length a) eqn:B; oinv H; injection H as <- <- <-; (split; [now left |]);
      cbn [goto t_pc inside]; exact HI.
  - apply Hr in H. destruct H as [-> H]. injection H as <- <- <-.
    split; [right; now right | cbn; split; discriminate].
  - injection H as <- <- <-. split; [now left | rewrite Ep; cbn [inside]; exact HI].
  - injection H as <- <- <-. split; [now left | rewrite Ep; cbn [inside]; exact HI].
Qed.

Lemma nth_error_upd_cases {A} (l : list A) i j a x :
  nth_error (upd l i a) j = Some x -> (i = j /\ x = a) \/ (i <> j /\ nth_error l j = Some x).
Proof.
  intros H. destruct (Nat.eq_dec i j) as [-> | N].
  - left. assert (j < length l) as L.
    { rewrite <- (length_upd l j a). apply nth_error_Some. congruence. }
    rewrite nth_error_upd_eq in H by exact L. split; congruence.
  - right. rewrite nth_error_upd_ne in H by congruence. auto.
Qed.

Lemma wstep_lock e w w' : lock_inv w -> wstep e w = Ok w' -> lock_inv w'.
Proof.
  intros HI H. unfold wstep in H. destruct (nth_error (w_threads w) (e_tid e)) as [t |] eqn:Et;
    [| now injection H as <-].
  oinv H. destruct a as [[l' c'] t']. injection H as <-.
  destruct (tstep_lock _ _ _ _ _ _ _ _ (HI _ _ Et) E) as [HL HT].
  intros j u Hj. cbn [w_threads w_lock fst snd] in *.
  apply nth_error_upd_cases in Hj. destruct Hj as [[<- ->] | [N Hj]]; [exact HT |].
  specialize (HI _ _ Hj). rewrite HI.
  destruct HL as [-> | [[-> ->] | [-> ->]]]; [tauto | |]; split; congruence.
Qed.

Lemma wrun_lock es : forall w w', lock_inv w -> wrun es w = Ok w' -> lock_inv w'.
Proof.
  induction es as [| e es IH]; intros w w' HI H; cbn [wrun] in H.
  - now injection H as <-.
  - oinv H. eauto using wstep_lock.
Qed.

Lemma enter_lock calls cache : lock_inv (enter calls cache).
Proof.
  intros i t H. cbn in H. rewrite nth_error_map in H.
  destruct (nth_error calls i); [| discriminate]. injection H as <-. cbn. split; discriminate.
Qed.

Lemma lock_no_race w : lock_inv w -> ~ data_race w.
Proof.
  intros HI (i & j & a & b & N & Ha & Hb & Ta & Tb & _).
  apply HI in Ha. apply HI in Hb.
  assert (inside (t_pc a) = true) as A by (destruct (t_pc a); cbn in *; congruence).
  assert (inside (t_pc b) = true) as B by (destruct (t_pc b); cbn in *; congruence).
  apply Ha in A. apply Hb in B. congruence.
Qed.

(** *** The cache, when resize does not fail *)
Definition filling (m k : nat) (row : list ext) : Prop :=
  length row = S m /\ nth_error row 0 = Some NInf /\ nth_error row m = Some (Fin 0%R) /\
  forall j, 1 <= j < k -> nth_error row j = Some (elg (st1 m j)).

Definition local (t : thread) (cache : list (list ext)) : Prop :=
  match t_pc t with
  | AtLock | Done | Thrown => False
  | AtTest => exists m, cache = rows m
  | AtPush => exists m, cache = rows m /\ m <= t_n t
  | AtResize m => cache = rows m ++ [[]]
  | AtFirst m => cache = rows m ++ [repeat (Fin 0%R) (m + 1)]
  | AtLast m => exists r, cache = rows m ++ [r] /\ length r = S m /\ nth_error r 0 = Some NInf
  | AtFill m k => exists r, cache = rows m ++ [r] /\ 1 < m /\ 1 <= k <= m /\ filling m k r
  | AtCopy k => exists m, cache = rows m /\ t_n t < m /\ k <= S (t_n t) /\
      forall j, j < k -> nth_error (t_buf t) j = nth_error (lrow (t_n t)) j
  | AtUnlock => (exists m, cache = rows m) /\ t_buf t = lrow (t_n t)
  end.

Definition data_inv (w : world) : Prop :=
  lock_inv w /\
  (forall i t, nth_error (w_threads w) i = Some t ->
     length (t_buf t) = S (t_n t) /\ (t_pc t = Done -> t_buf t = lrow (t_n t))) /\
  match w_lock w with
  | None => exists m, w_cache w = rows m
  | Some i => exists t, nth_error (w_threads w) i = Some t /\ local t (w_cache w)
  end.

Lemma vget_last {A} (l : list A) a : vget (l ++ [a]) (length l) = Ok a.
Proof. unfold vget. rewrite nth_error_app2, Nat.sub_diag by lia. reflexivity. Qed.

Lemma vget_front {A} (l : list A) a i x : vget l i = Ok x -> vget (l ++ [a]) i = Ok x.
Proof.
  unfold vget. destruct (nth_error l i) eqn:E; [| discriminate]. intros H.
  rewrite nth_error_app1 by (apply nth_error_Some; congruence). now rewrite E.
Qed.

Lemma upd_last {A} (l : list A) a b : upd (l ++ [a]) (length l) b = l ++ [b].
Proof. induction l as [| c l IH]; [reflexivity |]. cbn. now rewrite IH. Qed.

Lemma vset_rows m (r r' : list ext) : vset (rows m ++ [r]) m r' = Ok (rows m ++ [r']).
Proof.
  rewrite vset_ok by (rewrite app_length, rows_len; cbn; lia).
  pose proof (upd_last (rows m) r r') as G. rewrite rows_len in G. now rewrite G.
Qed.

Lemma put_last m r k v : k < length r -> put (rows m ++ [r]) m k v = Ok (rows m ++ [upd r k v]).
Proof.
  intros H. unfold put. pose proof (vget_last (rows m) r) as G. rewrite rows_len in G. rewrite G.
  cbn [obind]. rewrite vset_ok by exact H. cbn [obind]. apply vset_rows.
Qed.

Lemma filling_done m r : 1 < m -> filling m m r -> r = lrow m.
Proof.
  intros H1 (HL & H0 & Hm & Hj). apply nth_error_ext. intros i.
  destruct (Nat.le_gt_cases (S m) i) as [Hi | Hi].
  { rewrite (proj2 (nth_error_None r i)) by lia.
    symmetry. apply nth_error_None. rewrite lrow_len. lia. }
  rewrite lrow_nth by lia.
  destruct (Nat.eq_dec i 0) as [-> | I0]; [| destruct (Nat.eq_dec i m) as [-> | I1]].
  - now rewrite H0, st1_zero, elg_0 by lia.
  - now rewrite Hm, st1_diag, elg_pos, ln_1 by lra.
  - apply Hj. lia.
Qed.

Lemma fill_value m k : 1 <= k < m ->
  log_sum_exp (eadd (elog (Fin (INR (m - 1)))) (elg (st1 (m - 1) k))) (elg (st1 (m - 1) (k - 1)))
  = elg (st1 m k).
Proof.
  intros H. destruct m as [| m]; [lia |]. replace (S m - 1) with m by lia.
  destruct k as [| k]; [lia |]. replace (S k - 1) with k by lia.
  cbn [st1]. rewrite eadd_elg.
  - apply lse_elg; [| apply st1_nonneg].
    apply Rmult_lt_0_compat; [apply lt_0_INR; lia | apply st1_pos; lia].
  - apply lt_0_INR. lia.
  - apply st1_pos. lia.
Qed.

(** Remaining steps of a thread; [fc f s]: building f rows from size s on. *)
Fixpoint fc (f s : nat) : nat := match f with O => 0 | S f => s + 8 + fc f (S s) end.
Definition fillcost (s n : nat) : nat := fc (n + 1 - s) s.

Lemma fillcost_step s n : s <= n -> fillcost s n = s + 8 + fillcost (S s) n.
Proof.
  intros H. unfold fillcost. replace (n + 1 - s) with (S (n + 1 - S s)) by lia. reflexivity.
Qed.
Lemma fillcost_le s n : fillcost s n <= fillcost 0 n.
Proof.
  induction s as [| s IH]; [lia |]. destruct (Nat.le_gt_cases s n) as [H | H].
  - rewrite (fillcost_step s n H) in IH. lia.
  - unfold fillcost at 1. replace (n + 1 - S s) with 0 by lia. cbn. lia.
Qed.

Definition cost (cache : list (list ext)) (t : thread) : nat :=
  let n := t_n t in
  match t_pc t with
  | AtLock => fillcost 0 n + n + 10
  | AtTest => fillcost (length cache) n + n + 8
  | AtPush => fillcost (length cache) n + n + 7
  | AtResize m => fillcost (S m) n + n + 8 + (m + 6)
  | AtFirst m => fillcost (S m) n + n + 8 + (m + 5)
  | AtLast m => fillcost (S m) n + n + 8 + (m + 4)
  | AtFill m k => fillcost (S m) n + n + 8 + (m + 3 - k)
  | AtCopy k => n + 4 - k
  | AtUnlock => 1
  | Done | Thrown => 0
  end.

Definition enabled (lock : option nat) (t : thread) : bool :=
  match t_pc t with
  | Done | Thrown => false
  | AtLock => match lock with None => true | Some _ => false end
  | _ => true
  end.

(** One step of the owner, or of a thread that finds the mutex free. *)
Lemma tstep_data i e lock cache t :
  e_resize_ok e = true -> length (t_buf t) = S (t_n t) ->
  ((lock = Some i /\ local t cache) \/ (lock = None /\ t_pc t = AtLock /\ exists m, cache = rows m)) ->
  exists l' c' t', tstep i e lock cache t = Ok (l', c', t') /\
    t_n t' = t_n t /\ length (t_buf t') = S (t_n t) /\
    (t_pc t' = Done -> t_buf t' = lrow (t_n t)) /\
    ((l' = Some i /\ local t' c') \/ (l' = None /\ exists m, c' = rows m)) /\
    (cost c' t' < cost cache t).
Proof.
  intros He HB HL.
  destruct HL as [[-> HL] | [-> [Ep [m ->]]]].
  2: { unfold tstep, cost. rewrite Ep. do 3 eexists. split; [reflexivity |].
       cbn [goto t_n t_buf t_pc]. repeat split; try assumption; try discriminate.
       - left. split; [reflexivity |]. now exists m.
       - pose proof (fillcost_le (length (rows m)) (t_n t)). lia. }
  unfold tstep, local, cost in *. destruct (t_pc t) eqn:Ep; try contradiction.
  - destruct HL as [m ->]. rewrite rows_len. do 3 eexists. split; [reflexivity |].
    destruct (Nat.leb_spec m (t_n t)); cbn [goto t_n t_buf t_pc];
      (repeat split; try assumption; try discriminate).
    + left. split; [reflexivity |]. exists m. auto.
    + rewrite rows_len. lia.
    + left. split; [reflexivity |]. exists m. repeat split; lia.
    + rewrite Nat.sub_0_r. pose proof (fillcost_le m (t_n t)). lia.
  - destruct HL as (m & -> & Hm). destruct (e_push_ok e).
    + do 3 eexists. split; [reflexivity |]. cbn [goto t_n t_buf t_pc].
      repeat split; try assumption; try discriminate.
      * left. split; [reflexivity |]. now rewrite rows_len.
      * rewrite rows_len, (fillcost_step m) by exact Hm. lia.
    + rewrite Nat.eqb_refl. cbn [obind]. do 3 eexists. split; [reflexivity |].
      cbn [goto t_n t_buf t_pc]. repeat split; try assumption; try discriminate; [| lia].
      right. split; [reflexivity |]. now exists m.
  - rewrite He, HL, vset_rows. cbn [obind].
    do 3 eexists. split; [reflexivity |]. cbn [goto t_n t_buf t_pc].
    repeat split; try assumption; try discriminate; [| lia]. left. auto.
  - rewrite HL. rewrite put_last by (rewrite repeat_length; lia). cbn [obind].
    do 3 eexists. split; [reflexivity |]. cbn [goto t_n t_buf t_pc].
    repeat split; try assumption; try discriminate; [| lia]. left. split; [reflexivity |].
    eexists. split; [reflexivity |]. rewrite length_upd, repeat_length. split; [lia |].
    apply nth_error_upd_eq. rewrite repeat_length. lia.
  - destruct HL as (r & -> & Lr & R0). rewrite put_last by lia. cbn [obind].
    do 3 eexists. split; [reflexivity |].
    destruct (Nat.ltb_spec 1 m) as [H1 | H1]; cbn [goto t_n t_buf t_pc];
      (repeat split; try assumption; try discriminate).
    + left. split; [reflexivity |]. eexists. split; [reflexivity |].
      repeat split; try lia.
      * now rewrite length_upd.
      * rewrite nth_error_upd_ne by lia. exact R0.
      * apply nth_error_upd_eq. lia.
    + lia.
    + left. split; [reflexivity |]. exists (S m). rewrite rows_S. do 2 f_equal.
      destruct m as [| [| m]]; [| | lia]; unfold lrow; cbn [seq map].
      * destruct r as [| a [| ]]; try discriminate Lr. cbn.
        rewrite elg_pos, ln_1 by lra. reflexivity.
      * destruct r as [| a [| b [| ]]]; try discriminate Lr. cbn in R0. injection R0 as ->. cbn [upd].
        rewrite st1_diag, (st1_zero 1), elg_0, (elg_pos 1), ln_1 by (lra || lia). reflexivity.
    + rewrite app_length, rows_len. cbn [length]. replace (m + 1) with (S m) by lia. lia.
  - destruct HL as (r & -> & H1 & Hk & HF). destruct (Nat.ltb_spec k m) as [Hkm | Hkm].
    + rewrite (vget_front _ _ _ _ (rows_get m (m - 1) ltac:(lia))). cbn [obind].
      rewrite !lrow_get by lia. cbn [obind].
      rewrite fill_value by lia.
      destruct HF as (Lr & R0 & Rm & Rj). rewrite put_last by lia. cbn [obind].
      do 3 eexists. split; [reflexivity |]. cbn [goto t_n t_buf t_pc].
      repeat split; try assumption; try discriminate; [| lia].
      left. split; [reflexivity |]. eexists. split; [reflexivity |]. repeat split; try lia.
      * now rewrite length_upd.
      * rewrite nth_error_upd_ne by lia. exact R0.
      * rewrite nth_error_upd_ne by lia. exact Rm.
      * intros j Hj. destruct (Nat.eq_dec j k) as [-> | N].
        -- apply nth_error_upd_eq. lia.
        -- rewrite nth_error_upd_ne by lia. apply Rj. lia.
    + assert (k = m) as -> by lia. rewrite (filling_done m r H1 HF).
      do 3 eexists. split; [reflexivity |]. cbn [goto t_n t_buf t_pc].
      repeat split; try assumption; try discriminate.
      * left. split; [reflexivity |]. exists (S m). now rewrite rows_S.
      * rewrite app_length, rows_len. cbn [length]. replace (m + 1) with (S m) by lia. lia.
  - destruct HL as (m & -> & Hn & Hk & HC). rewrite rows_get by exact Hn. cbn [obind].
    rewrite lrow_len. destruct (Nat.ltb_spec k (S (t_n t))) as [Hkn | Hkn].
    + rewrite lrow_get by lia. cbn [obind]. rewrite vset_ok by lia. cbn [obind].
      do 3 eexists. split; [reflexivity |]. cbn [goto t_n t_buf t_pc].
      repeat split; try discriminate; [now rewrite length_upd | | lia].
      left. split; [reflexivity |]. exists m. cbn [t_n t_buf]. repeat split; try lia.
      intros j Hj. destruct (Nat.eq_dec j k) as [-> | N].
      * rewrite nth_error_upd_eq by lia. now rewrite lrow_nth by lia.
      * rewrite nth_error_upd_ne by lia. apply HC. lia.
    + do 3 eexists. split; [reflexivity |]. cbn [goto t_n t_buf t_pc].
      repeat split; try assumption; try discriminate; [| lia].
      left. split; [reflexivity |]. split; [now exists m |].
      apply nth_error_ext. intros j. destruct (Nat.le_gt_cases k j).
      * rewrite (proj2 (nth_error_None (t_buf t) j)) by lia.
        symmetry. apply nth_error_None. rewrite lrow_len. lia.
      * now apply HC.
  - destruct HL as [[m ->] HC]. rewrite Nat.eqb_refl. cbn [obind].
    do 3 eexists. split; [reflexivity |]. cbn [goto t_n t_buf t_pc].
    repeat split; try assumption; [intros _; assumption | | lia]. right. split; [reflexivity |]. now exists m.
Qed.

Definition total (w : world) : nat := list_sum (map (cost (w_cache w)) (w_threads w)).

Lemma sum_upd (f g : thread -> nat) l i a b :
  nth_error l i = Some a ->
  (forall j x, j <> i -> nth_error l j = Some x -> f x = g x) ->
  list_sum (map f (upd l i b)) + g a = list_sum (map g l) + f b.
Proof.
  revert i. induction l as [| c l IH]; intros [| i] H HX; try discriminate H; cbn [upd map].
  - injection H as ->. cbn.
    replace (map f l) with (map g l); [lia |].
    apply nth_error_ext. intros j. rewrite !nth_error_map.
    destruct (nth_error l j) as [x |] eqn:E; [| reflexivity]. cbn. f_equal. symmetry.
    apply (HX (S j) x); [lia | exact E].
  - cbn [list_sum fold_right] in *. specialize (IH i H).
    assert (forall j x, j <> i -> nth_error l j = Some x -> f x = g x) as HX'.
    { intros j x N E. apply (HX (S j) x); [lia | exact E]. }
    specialize (IH HX'). pose proof (HX 0 c ltac:(lia) eq_refl).
    unfold list_sum in *. cbn [fold_right]. lia.
Qed.

Lemma outside_cost c1 c2 t : inside (t_pc t) = false -> cost c1 t = cost c2 t.
Proof. unfold cost. destruct (t_pc t); cbn; intros H; congruence. Qed.

(** A step either finds its thread unable to move and changes nothing, or makes progress. *)
Lemma wstep_data e w :
  e_resize_ok e = true -> data_inv w ->
  exists w', wstep e w = Ok w' /\ data_inv w' /\ length (w_threads w') = length (w_threads w) /\
    (forall i t', nth_error (w_threads w') i = Some t' ->
       exists t, nth_error (w_threads w) i = Some t /\ t_n t' = t_n t) /\
    (w' = w \/ total w' < total w) /\
    (forall t, nth_error (w_threads w) (e_tid e) = Some t -> enabled (w_lock w) t = true ->
       total w' < total w).
Proof.
  intros He (HI & HT & HC). unfold wstep.
  destruct (nth_error (w_threads w) (e_tid e)) as [t |] eqn:Et.
  2: { exists w. split; [reflexivity |]. split; [exact (conj HI (conj HT HC)) |]. split; [reflexivity |].
       split; [intros i t' E; exists t'; auto |]. split; [now left |]. discriminate. }
  set (i := e_tid e) in *.
  assert (enabled (w_lock w) t = false \/
     (w_lock w = Some i /\ local t (w_cache w)) \/
     (w_lock w = None /\ t_pc t = AtLock /\ exists m, w_cache w = rows m)) as [Hd | Hd].
  { destruct (inside (t_pc t)) eqn:In.
    - right. left. assert (w_lock w = Some i) as L by (apply (HI _ _ Et); exact In).
      rewrite L in HC. destruct HC as (t' & E' & HL). rewrite Et in E'. injection E' as <-. auto.
    - unfold enabled. destruct (t_pc t) eqn:Ep; try discriminate In; [| now left | now left].
      destruct (w_lock w) eqn:L; [now left |]. right. right. auto. }
  - assert (tstep i e (w_lock w) (w_cache w) t = Ok (w_lock w, w_cache w, t)) as ->.
    { unfold tstep. unfold enabled in Hd. destruct (t_pc t); try discriminate Hd; try reflexivity.
      destruct (w_lock w); [reflexivity | discriminate Hd]. }
    cbn [obind fst snd].
    assert ({| w_lock := w_lock w; w_cache := w_cache w; w_threads := upd (w_threads w) i t |} = w) as ->.
    { destruct w as [l c ts]. cbn in *. f_equal. clear -Et. revert Et. generalize i. clear i.
      induction ts as [| a ts IH]; intros [| i] E; cbn in *; try discriminate; [congruence |].
      f_equal. now apply IH. }
    exists w. split; [reflexivity |]. split; [exact (conj HI (conj HT HC)) |]. split; [reflexivity |].
    split; [intros j t' E; exists t'; auto |]. split; [now left |]. intros t0 E. congruence.
  - destruct (HT _ _ Et) as [HB _].
    destruct (tstep_data i e _ _ t He HB Hd) as (l' & c' & t' & E & En & HB' & HD & HL' & Hcost).
    pose proof (wstep_lock e w) as WL. unfold wstep in WL. fold i in WL. rewrite Et in WL.
    rewrite E in *. cbn [obind fst snd] in *.
    specialize (WL _ HI eq_refl).
    eexists. split; [reflexivity |].
    assert (total {| w_lock := l'; w_cache := c'; w_threads := upd (w_threads w) i t' |} < total w) as HTot.
    { unfold total. cbn [w_cache w_threads].
      assert (list_sum (map (cost c') (upd (w_threads w) i t')) + cost (w_cache w) t
              = list_sum (map (cost (w_cache w)) (w_threads w)) + cost c' t') as S1; [| lia].
      apply sum_upd; [exact Et |]. intros j x N Ex. apply outside_cost.
      destruct (inside (t_pc x)) eqn:In; [| reflexivity].
      apply (HI _ _ Ex) in In. destruct Hd as [[L _] | [L _]]; congruence. }
    split; [| split; [cbn; apply length_upd | split; [| split; [right; exact HTot | intros _ _ _; exact HTot]]]].
    + split; [exact WL |]. cbn [w_lock w_cache w_threads]. split.
      * intros j x Hx. apply nth_error_upd_cases in Hx. destruct Hx as [[<- ->] | [N Hx]].
        -- rewrite En. auto.
        -- now apply (HT j).
      * destruct HL' as [[-> HL'] | [-> HL']]; [| exact HL'].
        exists t'. split; [| exact HL']. apply nth_error_upd_eq. apply nth_error_Some. congruence.
    + cbn [w_threads]. intros j x Hx. apply nth_error_upd_cases in Hx. destruct Hx as [[<- ->] | [N Hx]]; eauto.
Qed.

Lemma wrun_data es : forall w, Forall (fun e => e_resize_ok e = true) es -> data_inv w ->
  exists w', wrun es w = Ok w' /\ data_inv w' /\ length (w_threads w') = length (w_threads w) /\
    (forall i t', nth_error (w_threads w') i = Some t' ->
       exists t, nth_error (w_threads w) i = Some t /\ t_n t' = t_n t) /\
    (w' = w \/ total w' < total w).
Proof.
  induction es as [| e es IH]; intros w HF HI; cbn [wrun].
  - exists w. split; [reflexivity |]. split; [exact HI |]. split; [reflexivity |].
    split; [intros i t' E; exists t'; auto | now left].
  - inversion HF as [| ? ? He HF']; subst.
    destruct (wstep_data e w He HI) as (w1 & -> & I1 & L1 & N1 & D1 & _). cbn [obind].
    destruct (IH w1 HF' I1) as (w2 & E2 & I2 & L2 & N2 & D2).
    exists w2. split; [exact E2 |]. split; [exact I2 |]. split; [congruence |]. split.
    + intros i t' H. destruct (N2 _ _ H) as (t1 & H1 & E1). destruct (N1 _ _ H1) as (t0 & H0 & E0).
      exists t0. split; [exact H0 | congruence].
    + destruct D1 as [-> | D1], D2 as [-> | D2]; auto; right; lia.
Qed.

Lemma enter_data calls m : data_inv (enter calls (rows m)).
Proof.
  split; [apply enter_lock |]. split.
  - intros i t H. cbn in H. rewrite nth_error_map in H.
    destruct (nth_error calls i) as [c |]; [| discriminate]. injection H as <-.
    cbn [t_n t_buf t_pc]. split; [rewrite resize_len; lia | discriminate].
  - cbn. now exists m.
Qed.

(** While a thread has not ended, some thread can move. *)
Lemma some_enabled w : data_inv w -> (exists t, In t (w_threads w) /\ ~ ended t) ->
  exists i t, nth_error (w_threads w) i = Some t /\ enabled (w_lock w) t = true.
Proof.
  intros (HI & HT & HC) (t & Hin & He). apply In_nth_error in Hin. destruct Hin as [i Hi].
  destruct (w_lock w) as [j |] eqn:L.
  - destruct HC as (u & Hu & HL). exists j, u. split; [exact Hu |].
    unfold enabled, local in *. destruct (t_pc u); (reflexivity || contradiction).
  - exists i, t. split; [exact Hi |]. specialize (HI _ _ Hi).
    unfold enabled, ended in *. destruct (t_pc t); try reflexivity; cbn in HI; tauto || (exfalso; tauto).
Qed.

Lemma wrun_app a b w : wrun (a ++ b) w = obind (wrun a w) (wrun b).
Proof.
  revert w. induction a as [| e a IH]; intros w; cbn [app wrun]; [reflexivity |].
  destruct (wstep e w); cbn [obind]; auto.
Qed.

Lemma ended_dec t : {ended t} + {~ ended t}.
Proof. unfold ended. destruct (t_pc t); (left; tauto) || (right; intros [H | H]; discriminate H). Qed.

Lemma all_ended_dec ts : Forall ended ts \/ exists t, In t ts /\ ~ ended t.
Proof.
  induction ts as [| t ts IH]; [now left |]. destruct (ended_dec t) as [H | H].
  - destruct IH as [IH | (u & Hu & Hn)]; [left; now constructor | right; exists u; cbn; auto].
  - right. exists t. cbn. auto.
Qed.

Lemma fair_ends s k : (forall n, e_resize_ok (s n) = true) -> fair s k ->
  forall B a w, total w < B -> data_inv w -> length (w_threads w) = k ->
  exists c w', wrun (map s (seq a c)) w = Ok w' /\ data_inv w' /\ Forall ended (w_threads w') /\
    (forall i t', nth_error (w_threads w') i = Some t' ->
       exists t, nth_error (w_threads w) i = Some t /\ t_n t' = t_n t).
Proof.
  intros Hs Hf. induction B as [| B IH]; intros a w HB HI HK; [lia |].
  destruct (all_ended_dec (w_threads w)) as [He | He].
  { exists 0, w. cbn. split; [reflexivity |]. split; [exact HI |]. split; [exact He |]. intros i t' H. exists t'; auto. }
  destruct (some_enabled w HI He) as (i & t & Hi & Hen).
  destruct (Hf i a) as (m & Hm & Em).
  { rewrite <- HK. apply nth_error_Some. congruence. }
  assert (Forall (fun e => e_resize_ok e = true) (map s (seq a (m - a)))) as HF.
  { apply Forall_forall. intros e H. apply in_map_iff in H. destruct H as (x & <- & _). apply Hs. }
  destruct (wrun_data _ w HF HI) as (w1 & E1 & I1 & L1 & N1 & D1).
  destruct (wstep_data (s m) w1 (Hs m) I1) as (w2 & E2 & I2 & L2 & N2 & D2 & D2').
  assert (total w2 < B) as HB2.
  { destruct D1 as [-> | D1].
    - specialize (D2' t). rewrite Em in D2'. specialize (D2' Hi Hen). lia.
    - destruct D2 as [-> | D2]; lia. }
  destruct (IH (S m) w2 HB2 I2 ltac:(congruence)) as (c & w3 & E3 & I3 & H3 & N3).
  exists ((m - a) + (1 + c)), w3.
  rewrite seq_app, map_app, wrun_app, E1. cbn [obind].
  rewrite seq_app, map_app, wrun_app. replace (a + (m - a)) with m by lia. cbn [seq map wrun].
  rewrite E2. cbn [obind]. replace (m + 1) with (S m) by lia.
  split; [exact E3 |]. split; [exact I3 |]. split; [exact H3 |].
  intros j x Hx. destruct (N3 _ _ Hx) as (x2 & H2 & Q2). destruct (N2 _ _ H2) as (x1 & H1 & Q1).
  destruct (N1 _ _ H1) as (x0 & H0 & Q0). exists x0. split; [exact H0 | congruence].
Qed.

(** Without allocation failures nobody throws. *)
Lemma wstep_not_thrown e w w' : e_push_ok e = true -> e_resize_ok e = true ->
  Forall (fun t => t_pc t <> Thrown) (w_threads w) -> wstep e w = Ok w' ->
  Forall (fun t => t_pc t <> Thrown) (w_threads w').
Proof.
  intros Hp Hr HF H. unfold wstep in H.
  destruct (nth_error (w_threads w) (e_tid e)) as [t |] eqn:Et; [| now injection H as <-].
  oinv H. destruct a as [[l' c'] t']. injection H as <-. cbn [w_threads].
  assert (t_pc t' <> Thrown) as HT.
  { pose proof (proj1 (Forall_forall _ _) HF t (nth_error_In _ _ Et)) as N.
    unfold tstep in E. rewrite Hp, Hr in E.
    destruct (t_pc t) eqn:Ep; try congruence;
      repeat match type of E with
      | (if ?b then _ else _) = _ => destruct b
      | obind _ _ = _ => oinv E
      end;
      try (injection E as <- <- <-; cbn; try (destruct (_ <=? _)); try (destruct (1 <? _)); congruence).
    injection E as <- <- <-. cbn. destruct m as [| [| m]]; cbn; discriminate. }
  apply Forall_forall. intros x Hx. apply In_nth_error in Hx. destruct Hx as [j Hj].
  apply nth_error_upd_cases in Hj. destruct Hj as [[_ ->] | [_ Hj]]; [exact HT |].
  exact (proj1 (Forall_forall _ _) HF x (nth_error_In _ _ Hj)).
Qed.

Lemma wrun_not_thrown es : forall w w',
  Forall (fun e => e_push_ok e = true /\ e_resize_ok e = true) es ->
  Forall (fun t => t_pc t <> Thrown) (w_threads w) -> wrun es w = Ok w' ->
  Forall (fun t => t_pc t <> Thrown) (w_threads w').
Proof.
  induction es as [| e es IH]; intros w w' HE HF H; cbn [wrun] in H; [now injection H as <- |].
  oinv H. inversion HE as [| ? ? [Hp Hr] HE']; subst. eauto using wstep_not_thrown.
Qed.
