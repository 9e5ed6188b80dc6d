(** MixtureSlave with a caching value scorer behaves like the one without caches. *)
From Verif.spec Require Import SlaveSpec.
From Verif.model Require Import Base Packed Num VectorMath Component Slave SlaveRun.
From Verif.proof Require Import BaseProof VectorProof PackedProof LoopProof.

Lemma vget_lt {A} (l : list A) i x : vget l i = Ok x -> nth_error l i = Some x.
Proof. unfold vget. destruct (nth_error l i); congruence. Qed.
Lemma nth_lt {A} (l : list A) i x : nth_error l i = Some x -> i < length l.
Proof. intro H. apply nth_error_Some. congruence. Qed.
Lemma vset_inv {A} (l : list A) i a l' : vset l i a = Ok l' -> i < length l /\ l' = upd l i a.
Proof. unfold vset. destruct (Nat.ltb_spec i (length l)); [|discriminate]. intro E; injection E as <-; auto. Qed.
Lemma Forall_nth_error {A} (P : A -> Prop) l i x : Forall P l -> nth_error l i = Some x -> P x.
Proof. intros H E. rewrite Forall_forall in H. apply H. eapply nth_error_In, E. Qed.
Lemma Forall_upd {A} (P : A -> Prop) l i x : Forall P l -> P x -> Forall P (upd l i x).
Proof.
  intros H Hx. revert i. induction H as [|a l Ha H IH]; intros [|i]; simpl; auto.
Qed.
Lemma map_upd {A B} (f : A -> B) l i x : map f (upd l i x) = upd (map f l) i (f x).
Proof. revert i. induction l as [|a l IH]; intros [|i]; simpl; auto. now rewrite IH. Qed.
Lemma vset_map {A B} (f : A -> B) l i x : i < length l -> vset (map f l) i (f x) = Ok (map f (upd l i x)).
Proof. intro H. rewrite vset_ok by now rewrite map_length. now rewrite map_upd. Qed.
Lemma vget_map {A B} (f : A -> B) l i x : nth_error l i = Some x -> vget (map f l) i = Ok (f x).
Proof. intro H. apply vget_nth. now apply map_nth_error. Qed.
Lemma removelast_map {A B} (f : A -> B) l : removelast (map f l) = map f (removelast l).
Proof. induction l as [|a l IH]; [reflexivity|]. destruct l; [reflexivity|]. simpl in *. now rewrite IH. Qed.
Lemma packed_remove_map {A B} (f : A -> B) dl l i l' :
  packed_remove dl l i = Ok l' -> packed_remove dl (map f l) i = Ok (map f l').
Proof.
  unfold packed_remove. rewrite map_length.
  destruct (dassert_at dl 1 (i <? length l)); cbn [obind]; try discriminate.
  destruct (vget l (length l - 1)) as [b| |] eqn:Eb; cbn [obind]; try discriminate.
  rewrite (vget_map f _ _ _ (vget_lt _ _ _ Eb)). cbn [obind].
  destruct (vset l i b) as [l1| |] eqn:E1; cbn [obind]; try discriminate.
  apply vset_inv in E1 as [Hi ->]. rewrite vset_map by exact Hi. cbn [obind].
  intro E; injection E as <-. now rewrite removelast_map.
Qed.
Lemma packed_remove_Forall {A} (P : A -> Prop) dl l i l' :
  packed_remove dl l i = Ok l' -> Forall P l -> Forall P l'.
Proof.
  unfold packed_remove.
  destruct (dassert_at dl 1 (i <? length l)); cbn [obind]; try discriminate.
  destruct (vget l (length l - 1)) as [b| |] eqn:Eb; cbn [obind]; try discriminate.
  destruct (vset l i b) as [l1| |] eqn:E1; cbn [obind]; try discriminate.
  apply vset_inv in E1 as [Hi ->]. intro E; injection E as <-. intro H.
  assert (Hb : P b) by (eapply Forall_nth_error; [exact H|]; apply vget_lt; exact Eb).
  pose proof (Forall_upd P l i b H Hb) as Hu. revert Hu. generalize (upd l i b). clear.
  intros l H. induction H as [|x l Hx H IH]; [constructor|]. destruct l; [constructor|].
  change (removelast (x :: a :: l)) with (x :: removelast (a :: l)). constructor; auto.
Qed.
Lemma vset_last {A} (l : list A) a b : vset (l ++ [a]) (length l) b = Ok (l ++ [b]).
Proof. apply vset_app. Qed.

(** A column being refilled entry by entry. *)
Definition colinv {G A} (gs : list G) (f : G -> A) (k : nat) (col : list A) : Prop :=
  length col = length gs /\ forall j g, j < k -> nth_error gs j = Some g -> nth_error col j = Some (f g).
Lemma colinv_0 {G A} (gs : list G) (f : G -> A) col : length col = length gs -> colinv gs f 0 col.
Proof. intro H. split; [exact H|]. intros; lia. Qed.
Lemma colinv_step {G A} (gs : list G) (f : G -> A) k col g : colinv gs f k col -> nth_error gs k = Some g ->
  vset col k (f g) = Ok (upd col k (f g)) /\ colinv gs f (S k) (upd col k (f g)).
Proof.
  intros [Hl H] Hg. pose proof (nth_lt _ _ _ Hg) as Hk. split; [apply vset_ok; lia|].
  split; [now rewrite length_upd|]. intros j g' Hj Hg'.
  destruct (PeanoNat.Nat.eq_dec j k) as [->|Hne].
  - rewrite nth_error_upd_eq by lia. congruence.
  - rewrite nth_error_upd_ne by lia. apply H; [lia|exact Hg'].
Qed.
Lemma colinv_end {G A} (gs : list G) (f : G -> A) col : colinv gs f (length gs) col -> col = map f gs.
Proof.
  intros [Hl H]. apply nth_error_ext. intro i. destruct (nth_error gs i) as [g|] eqn:E.
  - rewrite (map_nth_error f _ _ E). apply H; auto. apply nth_lt in E; exact E.
  - apply nth_error_None in E. transitivity (@None A).
    + apply nth_error_None. lia. + symmetry. apply nth_error_None. rewrite map_length. lia.
Qed.
Lemma mapi_map {A B D} (f : nat -> A -> B) (gs : list D) (h : D -> B) l : length l = length gs ->
  (forall i x g, nth_error l i = Some x -> nth_error gs i = Some g -> f i x = h g) -> mapi f l = map h gs.
Proof.
  intros Hl H. apply nth_error_ext. intro i. rewrite nth_mapi.
  destruct (nth_error l i) as [x|] eqn:E; cbn [option_map].
  - destruct (vget_some gs i) as (g & Hg & _); [apply nth_lt in E; lia|].
    rewrite (map_nth_error h _ _ Hg). now rewrite (H _ _ _ E Hg).
  - symmetry. apply nth_error_None. apply nth_error_None in E. rewrite map_length. lia.
Qed.

Definition col_add {F} {N : Num F} (accum scores : list F) : list F := map (fun p => nadd (fst p) (snd p)) (combine accum scores).
Lemma nth_combine {A B} (l : list A) (m : list B) i x y :
  nth_error l i = Some x -> nth_error m i = Some y -> nth_error (combine l m) i = Some (x, y).
Proof.
  revert m i. induction l as [|a l IH]; intros [|b m] [|i]; simpl; try discriminate; [congruence|auto].
Qed.
Lemma col_add_length {F} {N : Num F} (accum scores : list F) : length accum = length scores ->
  length (col_add accum scores) = length accum.
Proof. intro H. unfold col_add. rewrite map_length, combine_length. lia. Qed.
Lemma nth_col_add {F} {N : Num F} (a m : list F) i x y :
  nth_error a i = Some x -> nth_error m i = Some y -> nth_error (col_add a m) i = Some (nadd x y).
Proof.
  intros H1 H2. unfold col_add.
  rewrite (map_nth_error (fun p : F * F => nadd (fst p) (snd p)) _ _ (nth_combine _ _ _ _ _ H1 H2)). reflexivity.
Qed.
(** An accumulation loop over the groups. *)
Lemma accum_loop {F} {N : Num F} {G} (gs : list G) (h : G -> F) (f : nat -> F -> outcome F) accum :
  length accum = length gs ->
  (forall i x g, nth_error accum i = Some x -> nth_error gs i = Some g -> f i x = Ok (nadd x (h g))) ->
  vfor 0 (length accum) (vupdate f) accum = Ok (col_add accum (map h gs)).
Proof.
  intros Hl Hf.
  set (hh i x := match nth_error gs i with Some g => nadd x (h g) | None => x end).
  rewrite (vupdate_mapi f hh).
  - f_equal. apply nth_error_ext. intro i. rewrite nth_mapi.
    destruct (nth_error accum i) as [x|] eqn:E; cbn [option_map].
    + destruct (vget_some gs i) as (g & Hg & _); [apply nth_lt in E; lia|].
      rewrite (nth_col_add _ _ _ _ _ E (map_nth_error h _ _ Hg)). unfold hh. now rewrite Hg.
    + symmetry. apply nth_error_None. apply nth_error_None in E. rewrite col_add_length; [lia|].
      now rewrite map_length.
  - intros i x E. destruct (vget_some gs i) as (g & Hg & _); [apply nth_lt in E; lia|].
    unfold hh. rewrite Hg. eapply Hf; eauto.
Qed.
(** A scratch column computed from the groups. *)
Lemma out_loop {F} {N : Num F} {G} (gs : list G) (h : G -> F) (body : nat -> list F -> outcome (list F)) out :
  length out = length gs ->
  (forall i o g, nth_error gs i = Some g -> body i o = vset o i (h g)) ->
  vfor 0 (length gs) body out = Ok (map h gs).
Proof.
  intros Hl Hb.
  destruct (vfor_inv (colinv gs h) body (length gs) 0 out) as (r & E & Hr).
  - now apply colinv_0.
  - intros i o Hi Ho. destruct (vget_some gs i) as (g & Hg & _); [lia|].
    destruct (colinv_step _ _ _ _ _ Ho Hg) as [E1 H1]. exists (upd o i (h g)). split; [|exact H1].
    rewrite (Hb _ _ _ Hg). exact E1.
  - rewrite E. f_equal. apply colinv_end, Hr.
Qed.
Lemma log_col {F} {N : Num F} {G} (gs : list G) (h : G -> F) (f : F -> F) :
  vector_map_io f (length gs) (map h gs) = Ok (map (fun g => f (h g)) gs).
Proof.
  unfold vector_map_io. pose proof (map_length h gs) as Hl. rewrite <- Hl at 1.
  rewrite (vupdate_mapi _ (fun _ x => f x)) by reflexivity. f_equal. apply mapi_map; [exact Hl|].
  intros i x g Hx Hg. rewrite (map_nth_error h _ _ Hg) in Hx. injection Hx as <-. reflexivity.
Qed.

(** The cache is a function [cache] of the groups. *)
Section Coherent.
  Context {C : component} {F : Type} {N : Num F}.
  Variables (S : vscorer C F) (dl : nat) (sh : shared_t C).
  Variable W : group_t C -> Prop.
  Variable okv : value_t C -> Prop.
  Variable cache : list (group_t C) -> vs_t S.
  Variable fsc : group_t C -> value_t C -> F.

  Record coherent : Prop := {
    co_init : W (c_init C sh);
    co_add : forall g v g', W g -> c_add C dl sh g v = Ok g' -> W g';
    co_rem : forall g v g', W g -> c_rem C dl sh g v = Ok g' -> W g';
    co_all : forall t gs, Forall W gs -> exists t1, vs_resize S dl sh t (length gs) = Ok t1 /\
               vs_update_all S dl sh t1 gs = Ok (cache gs);
    co_addg : forall gs, Forall W gs -> exists t1, vs_add_group S dl sh (cache gs) = Ok t1 /\
               vs_update_group S dl sh t1 (length gs) (c_init C sh) = Ok (cache (gs ++ [c_init C sh]));
    co_remg : forall gs i gs', Forall W gs -> packed_remove dl gs i = Ok gs' ->
               vs_remove_group S dl sh (cache gs) i = Ok (cache gs');
    co_addv : forall gs i g v g', Forall W gs -> nth_error gs i = Some g -> c_add C dl sh g v = Ok g' ->
               vs_add_value S dl sh (cache gs) i g' v = Ok (cache (upd gs i g'));
    co_remv : forall gs i g v g', Forall W gs -> nth_error gs i = Some g -> c_rem C dl sh g v = Ok g' ->
               vs_remove_value S dl sh (cache gs) i g' v = Ok (cache (upd gs i g'));
    co_group : forall gs i g v, Forall W gs -> okv v -> nth_error gs i = Some g ->
               vs_score_group S dl sh (cache gs) gs i v = Ok (fsc g v);
    co_score : forall gs v accum, Forall W gs -> okv v -> length accum = length gs ->
               vs_score S dl sh (cache gs) gs v accum = Ok (col_add accum (map (fun g => fsc g v) gs)) }.

  Hypothesis H : coherent.
  Notation small := (small_vscorer (fun _ _ g v => Ok (fsc g v))).

  Definition good (s : slave S) : Prop := Forall W (sl_groups s) /\ sl_vs s = cache (sl_groups s).

  Lemma init_good gs t : Forall W gs -> slave_init S dl sh (mk_slave gs t) = Ok (mk_slave gs (cache gs)).
  Proof.
    intro HW. unfold slave_init. cbn [sl_groups sl_vs].
    destruct (co_all H t gs HW) as (t1 & E1 & E2). rewrite E1. cbn [obind]. rewrite E2. reflexivity.
  Qed.

  Lemma sg_get_ok gs i g : nth_error gs i = Some g -> sg_get (C:=C) dl gs i = Ok g.
  Proof.
    intro E. unfold sg_get. rewrite dassert_at_true by (apply Nat.ltb_lt, (nth_lt _ _ _ E)).
    cbn [obind]. apply vget_nth, E.
  Qed.
  Lemma sg_get_inv gs i g : sg_get (C:=C) dl gs i = Ok g -> nth_error gs i = Some g.
  Proof.
    unfold sg_get. destruct (dassert_at dl 1 _); cbn [obind]; try discriminate. apply vget_lt.
  Qed.

  (** The cacheless slave of the same component and any scoring function. *)
  Variable gscore : nat -> shared_t C -> group_t C -> value_t C -> outcome F.
  Notation slow := (small_vscorer gscore).

  Definition twin (s : slave S) (q : slave slow) : Prop := good s /\ sl_groups s = sl_groups q.

  Lemma step_twin s q o : twin s q -> agrees twin (slave_run1 S dl sh s o) (slave_run1 slow dl sh q o).
  Proof.
    intros [[HW Hc] Hg]. destruct s as [gs t], q as [gq u]. cbn [sl_groups sl_vs] in *. subst gq t.
    destruct o as [|i|i v|i v]; cbn [slave_run1].
    - unfold slave_add_group. cbn [sl_groups sl_vs]. unfold sg_add_group, packed_add.
      destruct (co_addg H gs HW) as (t1 & E1 & E2). rewrite E1. cbn [obind].
      rewrite (sg_get_ok (gs ++ [c_init C sh]) (length gs) (c_init C sh)).
      2:{ rewrite nth_error_app2, Nat.sub_diag by lia. reflexivity. }
      cbn [obind vs_add_group vs_update_group small_vscorer]. rewrite E2. cbn [obind agrees].
      split; [|reflexivity]. split; [|reflexivity]. cbn [sl_groups]. apply Forall_app. split; [exact HW|].
      constructor; [|constructor]. apply (co_init H).
    - unfold slave_remove_group, sg_remove_group. cbn [sl_groups sl_vs].
      destruct (packed_remove dl gs i) as [gs'| |] eqn:E; cbn [obind agrees]; auto.
      rewrite (co_remg H _ _ _ HW E). cbn [obind vs_remove_group small_vscorer agrees].
      split; [|reflexivity]. split; [|reflexivity]. cbn [sl_groups]. eapply packed_remove_Forall; eauto.
    - unfold slave_add_value, sg_add_value. cbn [sl_groups sl_vs].
      destruct (sg_get dl gs i) as [g| |] eqn:Eg; cbn [obind agrees]; auto.
      apply sg_get_inv in Eg. pose proof (nth_lt _ _ _ Eg) as Hi.
      destruct (c_add C dl sh g v) as [g'| |] eqn:Ea; cbn [obind agrees]; auto.
      rewrite vset_ok by exact Hi. cbn [obind].
      rewrite (sg_get_ok _ i g') by (apply nth_error_upd_eq, Hi). cbn [obind vs_add_value small_vscorer].
      rewrite (co_addv H _ _ _ _ _ HW Eg Ea). cbn [obind agrees].
      split; [|reflexivity]. split; [|reflexivity]. cbn [sl_groups]. apply Forall_upd; [exact HW|].
      eapply (co_add H); [|exact Ea]. eapply Forall_nth_error; eauto.
    - unfold slave_remove_value, sg_remove_value. cbn [sl_groups sl_vs].
      destruct (sg_get dl gs i) as [g| |] eqn:Eg; cbn [obind agrees]; auto.
      apply sg_get_inv in Eg. pose proof (nth_lt _ _ _ Eg) as Hi.
      destruct (c_rem C dl sh g v) as [g'| |] eqn:Ea; cbn [obind agrees]; auto.
      rewrite vset_ok by exact Hi. cbn [obind].
      rewrite (sg_get_ok _ i g') by (apply nth_error_upd_eq, Hi). cbn [obind vs_remove_value small_vscorer].
      rewrite (co_remv H _ _ _ _ _ HW Eg Ea). cbn [obind agrees].
      split; [|reflexivity]. split; [|reflexivity]. cbn [sl_groups]. apply Forall_upd; [exact HW|].
      eapply (co_rem H); [|exact Ea]. eapply Forall_nth_error; eauto.
  Qed.

  Lemma run_twin ops : forall s q, twin s q -> agrees twin (slave_run S dl sh s ops) (slave_run slow dl sh q ops).
  Proof.
    induction ops as [|o ops IH]; intros s q Hs; cbn [slave_run]; [exact Hs|].
    pose proof (step_twin s q o Hs) as Hst.
    destruct (slave_run1 S dl sh s o) as [s'| |], (slave_run1 slow dl sh q o) as [q'| |];
      cbn [obind agrees] in *; try contradiction; auto.
  Qed.

  Lemma start_twin gs t u ops : Forall W gs ->
    agrees twin (slave_start S dl sh gs t ops) (slave_start slow dl sh gs u ops).
  Proof.
    intro HW. unfold slave_start. rewrite init_good by exact HW.
    cbn [obind slave_init vs_resize vs_update_all small_vscorer sl_groups sl_vs].
    apply run_twin. split; [|reflexivity]. split; [exact HW|reflexivity].
  Qed.

  (** Scores of a good state. *)
  Lemma good_group s i g v : good s -> okv v -> nth_error (sl_groups s) i = Some g ->
    slave_score_value_group S dl sh s i v = Ok (fsc g v).
  Proof.
    intros [HW Hc] Hv Eg. unfold slave_score_value_group.
    rewrite dassert_at_true by (apply Nat.ltb_lt, (nth_lt _ _ _ Eg)). cbn [obind].
    rewrite Hc. now apply (co_group H).
  Qed.
  Lemma good_score s v accum : good s -> okv v -> length accum = length (sl_groups s) ->
    slave_score_value S dl sh s v accum = Ok (col_add accum (map (fun g => fsc g v) (sl_groups s))).
  Proof.
    intros [HW Hc] Hv Hl. unfold slave_score_value.
    rewrite dassert_at_true by (apply Nat.eqb_eq, Hl). cbn [obind]. rewrite Hc. now apply (co_score H).
  Qed.
  Lemma good_fresh s t : good s -> slave_init S dl sh (mk_slave (sl_groups s) t) = Ok s.
  Proof. intros [HW Hc]. rewrite init_good by exact HW. destruct s as [gs t1]; cbn [sl_groups sl_vs] in *. now subst. Qed.
  Lemma good_added s v accum : good s -> okv v -> length accum = length (sl_groups s) ->
    exists r, slave_score_value S dl sh s v accum = Ok r /\
      added nadd accum r (fun i => slave_score_value_group S dl sh s i v).
  Proof.
    intros Hs Hv Hl. eexists. split; [now apply good_score|]. split.
    - apply col_add_length. now rewrite map_length.
    - intros i x Hx. destruct (vget_some (sl_groups s) i) as (g & Hg & _); [apply nth_lt in Hx; lia|].
      exists (fsc g v). split; [now apply good_group|].
      apply nth_col_add; [exact Hx|]. exact (map_nth_error (fun g => fsc g v) _ _ Hg).
  Qed.
End Coherent.
