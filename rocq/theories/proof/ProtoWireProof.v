(** Proofs about ProtoWire.v: what the setters put in, the getters take out. *)
From Coq Require Import ZArith Lia String List Permutation.
Import ListNotations.
From Verif.model Require Import Base Wire SchemaCode Schema Num Component BB GP BNB NICH DD Sparse DPD NIW PitmanYor Proto ProtoWire Stream.
From Verif.spec Require Import WireSpec GroupSpec CrossSpec StreamSpec.
From Verif.proof Require Import BaseProof GroupProof DDProof ProtoProof WireProof SchemaGen SchemaWrite SchemaProof StreamProof.
Local Open Scope Z_scope.

Lemma Forall2_cons_r {A B} (R : A -> B -> Prop) x l k : Forall2 R (x :: l) k -> exists y k', k = y :: k' /\ R x y /\ Forall2 R l k'.
Proof. intro H. inversion H. eauto. Qed.
Lemma Forall2_nil_r {A B} (R : A -> B -> Prop) k : Forall2 R [] k -> k = [].
Proof. intro H. now inversion H. Qed.
Lemma req_inv t n s : slot_ok (required t n) s -> exists o, s = One o.
Proof. destruct s; cbn; [eauto|tauto]. Qed.
Lemma rep_inv t n s : slot_ok (repeated t n) s -> exists o, s = Many o.
Proof. destruct s; cbn; [tauto|eauto]. Qed.

(** The members of a message of a known schema. *)
Ltac open_message H :=
  let ss := fresh "ss" in let us := fresh "us" in let Hs := fresh "Hs" in let Hu := fresh "Hu" in
  match type of H with message_of _ _ ?m => destruct m as [ss us]; destruct H as [Hs Hu]; cbn [slots unknown] in Hs, Hu end;
  repeat match goal with
  | K : Forall2 slot_ok (_ :: _) _ |- _ =>
      let y := fresh "s" in let k := fresh "k" in let E := fresh "E" in
      apply Forall2_cons_r in K as (y & k & -> & E & K);
      first [apply req_inv in E as [? ->] | apply rep_inv in E as [? ->]]
  | K : Forall2 slot_ok [] _ |- _ => apply Forall2_nil_r in K; subst
  end.

Lemma add_members_at i vs : forall pre post old us, length pre = i ->
  add_members i vs (Message (pre ++ Many old :: post) us) = Ok (Message (pre ++ Many (old ++ vs) :: post) us).
Proof.
  induction vs as [|v vs IH]; intros pre post old us E; cbn [add_members]; [now rewrite app_nil_r|].
  unfold add_member, store, vset, vget. cbn [slots unknown].
  rewrite nth_error_app2 by lia. rewrite E, Nat.sub_diag. cbn [nth_error obind].
  rewrite app_length. cbn [length]. destruct (Nat.ltb_spec i (length pre + S (length post))); [|lia]. cbn [obind].
  assert (U : upd (pre ++ Many old :: post) i (Many (old ++ [v])) = pre ++ Many (old ++ [v]) :: post).
  { subst i. clear. induction pre as [|a pre IH]; cbn; [reflexivity|]. now rewrite IH. }
  rewrite U, IH by exact E. now rewrite <- app_assoc.
Qed.

Definition placed {X} (d : nat) (sch : schema) (put : X -> message -> outcome message) (get : message -> outcome X)
    (x : X) (m0 : message) : Prop :=
  exists m, put x m0 = Ok m /\ message_of d sch m /\ complete sch m /\ get m = Ok x.

Lemma placed_crosses {X A} name c sch d (put : X -> message -> outcome message) get (load : X -> outcome A) x m0 a :
  In (name, c) schema_pb -> In (name, sch) schema_proto -> placed d sch put get x m0 -> load x = Ok a ->
  crosses c d put get load x m0 a.
Proof.
  intros Hc Hs (m & P & M & C & G) L. destruct (round_trip_full name c sch Hc Hs d m M C) as (l & S & _ & B & R).
  exists m, l. split; [exact P|]. split; [exact S|]. split.
  - intro Hl. unfold to_bytes. rewrite P. cbn [obind]. now apply B.
  - intro room. unfold from_bytes. rewrite R. cbn [obind]. rewrite G. exact L.
Qed.

Lemma cleared name c sch d m : In (name, c) schema_pb -> In (name, sch) schema_proto -> message_of d sch m -> clear c m = empty_message sch.
Proof. intros Hc Hs H. exact (proj1 (copy name c sch Hc Hs d m m H H)). Qed.

Lemma as_size_range z : 0 <= as_size z < 2 ^ 64.
Proof. unfold as_size. apply Z.mod_pos_bound. reflexivity. Qed.

Section Floats.
  Context {F : Type} (bits : F -> Z) (unbits : Z -> F).
  Hypothesis ub : forall x, unbits (bits x) = x.
  Hypothesis br : forall x, 0 <= bits x < 2 ^ 32.
  Notation ok64 z := (0 <= z < 2 ^ 64).
  Notation ok32 z := (0 <= z < 2 ^ 32).

  Lemma map_ub l : map unbits (map bits l) = l.
  Proof. induction l as [|x l IH]; cbn; [reflexivity|]. now rewrite ub, IH. Qed.
  Lemma map_br l : Forall (fun v => ok32 v) (map bits l).
  Proof. induction l; constructor; auto. Qed.

  (* members set one by one *)
  Ltac ones H :=
    open_message H; eexists; split; [reflexivity|]; split;
    [split; [repeat (constructor; [cbn; auto|]); constructor|assumption]|];
    split; [repeat (constructor; [discriminate|]); constructor|];
    cbn; rewrite ?ub; try reflexivity.

  Lemma bb_shared_placed d x m0 : message_of d [required TFloat 1; required TFloat 2] m0 ->
    placed d [required TFloat 1; required TFloat 2] (bb_shared_put bits) (bb_shared_get unbits) x m0.
  Proof. intro H. destruct x. ones H. Qed.
  Lemma bb_placed d x m0 : ok64 (bm_heads x) -> ok64 (bm_tails x) -> message_of d [required TUint64 1; required TUint64 2] m0 ->
    placed d [required TUint64 1; required TUint64 2] bb_put bb_get x m0.
  Proof. intros A B H. destruct x. ones H. Qed.
  Lemma gp_shared_placed d x m0 : message_of d [required TFloat 1; required TFloat 2] m0 ->
    placed d [required TFloat 1; required TFloat 2] (gp_shared_put bits) (gp_shared_get unbits) x m0.
  Proof. intro H. destruct x. ones H. Qed.
  Lemma gp_placed d x m0 : ok64 (gm_count x) -> ok64 (gm_sum x) ->
    message_of d [required TUint64 1; required TUint64 2; required TFloat 3] m0 ->
    placed d [required TUint64 1; required TUint64 2; required TFloat 3] (gp_put bits) (gp_get unbits) x m0.
  Proof. intros A B H. destruct x. ones H. Qed.
  Lemma bnb_shared_placed d x m0 : ok64 (nsm_r x) -> message_of d [required TFloat 1; required TFloat 2; required TUint64 3] m0 ->
    placed d [required TFloat 1; required TFloat 2; required TUint64 3] (bnb_shared_put bits) (bnb_shared_get unbits) x m0.
  Proof. intros A H. destruct x. ones H. Qed.
  Lemma bnb_placed d x m0 : ok64 (nm_count x) -> ok64 (nm_sum x) -> message_of d [required TUint64 1; required TUint64 2] m0 ->
    placed d [required TUint64 1; required TUint64 2] bnb_put bnb_get x m0.
  Proof. intros A B H. destruct x. ones H. Qed.
  Lemma nich_shared_placed d x m0 : message_of d [required TFloat 1; required TFloat 2; required TFloat 3; required TFloat 4] m0 ->
    placed d [required TFloat 1; required TFloat 2; required TFloat 3; required TFloat 4] (nich_shared_put bits) (nich_shared_get unbits) x m0.
  Proof. intro H. destruct x. ones H. Qed.
  Lemma nich_placed d x m0 : ok64 (cm_count x) -> message_of d [required TUint64 1; required TFloat 2; required TFloat 3] m0 ->
    placed d [required TUint64 1; required TFloat 2; required TFloat 3] (nich_put bits) (nich_get unbits) x m0.
  Proof. intros A H. destruct x. ones H. Qed.
  Lemma py_placed d x m0 : message_of d [required TFloat 1; required TFloat 2] m0 ->
    placed d [required TFloat 1; required TFloat 2] (py_put bits) (py_get unbits) x m0.
  Proof. intro H. destruct x. ones H. Qed.
  Lemma le_placed d x m0 : ok64 x -> message_of d [required TUint64 1] m0 ->
    placed d [required TUint64 1] le_put le_get x m0.
  Proof. intros A H. ones H. Qed.

  Lemma dd_shared_placed d x m0 : message_of d [repeated TFloat 1] m0 ->
    placed d [repeated TFloat 1] (dd_shared_put bits) (dd_shared_get unbits) x m0.
  Proof.
    intro H. unfold placed, dd_shared_put.
    rewrite (cleared "DirichletDiscrete.Shared" _ [repeated TFloat 1] d m0) by (cbn; tauto || exact H).
    cbn [empty_message map f_label repeated required]. eexists. split; [apply (add_members_at 0 _ [] []); reflexivity|].
    split; [split; [repeat constructor; apply map_br|constructor]|].
    split; [repeat constructor; discriminate|]. cbn. now rewrite map_ub.
  Qed.
  Lemma dd_placed d x m0 : Forall (fun v => ok64 v) x -> message_of d [repeated TUint64 1] m0 ->
    placed d [repeated TUint64 1] dd_put dd_get x m0.
  Proof.
    intros A H. unfold placed, dd_put.
    rewrite (cleared "DirichletDiscrete.Group" _ [repeated TUint64 1] d m0) by (cbn; tauto || exact H).
    cbn [empty_message map f_label repeated required]. eexists. split; [apply (add_members_at 0 _ [] []); reflexivity|].
    split; [split; [repeat constructor; exact A|constructor]|].
    split; [repeat constructor; discriminate|reflexivity].
  Qed.

  Lemma dpd_put_loop_ok us : forall ks vs ok ov, length ks = length vs ->
    dpd_put_loop ks vs (Message [Many ok; Many ov] us) = Ok (Message [Many (ok ++ ks); Many (ov ++ vs)] us).
  Proof.
    induction ks as [|k ks IH]; intros [|v vs] ok ov E; cbn [length] in E; try discriminate; [cbn; now rewrite !app_nil_r|].
    cbn [dpd_put_loop]. unfold add_member. cbn. rewrite IH by congruence. now rewrite <- !app_assoc.
  Qed.
  Lemma dpd_placed d x m0 : Forall (fun v => ok32 v) (pm_keys x) -> Forall (fun v => ok64 v) (pm_values x) ->
    length (pm_keys x) = length (pm_values x) -> message_of d [repeated TUint32 1; repeated TUint64 2] m0 ->
    placed d [repeated TUint32 1; repeated TUint64 2] dpd_put dpd_get x m0.
  Proof.
    intros A B E H. unfold placed, dpd_put.
    rewrite (cleared "DirichletProcessDiscrete.Group" _ [repeated TUint32 1; repeated TUint64 2] d m0) by (cbn; tauto || exact H).
    cbn [empty_message map f_label repeated required]. eexists. split; [apply dpd_put_loop_ok; exact E|].
    split; [split; [repeat (constructor; [assumption|]); constructor|constructor]|].
    split; [repeat constructor; discriminate|]. cbn. now destruct x.
  Qed.

  Lemma dps_put_loop_ok a b us : forall vs bs cs ov ob oc, length vs = length bs -> length vs = length cs ->
    dps_put_loop bits vs bs cs (Message [a; b; Many ov; Many ob; Many oc] us)
    = Ok (Message [a; b; Many (ov ++ vs); Many (ob ++ map bits bs); Many (oc ++ cs)] us).
  Proof.
    induction vs as [|v vs IH]; intros [|f bs] [|c cs] ov ob oc E1 E2; cbn [length] in E1, E2; try discriminate;
      [cbn; now rewrite !app_nil_r|].
    cbn [dps_put_loop]. unfold add_member. cbn. rewrite IH by congruence. now rewrite <- !app_assoc.
  Qed.
  Definition dps_schema := [required TFloat 1; required TFloat 2; repeated TUint32 3; repeated TFloat 4; repeated TUint64 5].
  Lemma dps_placed d x m0 : Forall (fun v => ok32 v) (dm_values x) -> Forall (fun v => ok64 v) (dm_counts x) ->
    length (dm_values x) = length (dm_betas x) -> length (dm_values x) = length (dm_counts x) ->
    message_of d dps_schema m0 -> placed d dps_schema (dps_put bits) (dps_get unbits) x m0.
  Proof.
    intros A B E1 E2 H. unfold placed, dps_put.
    rewrite (cleared "DirichletProcessDiscrete.Shared" _ dps_schema d m0) by (cbn; tauto || exact H).
    destruct x as [g a vs bs cs]; cbn [dm_values dm_counts dm_betas dm_gamma dm_alpha] in *. eexists. split.
    { cbn [empty_message dps_schema map f_label repeated required]. unfold set_member. cbn [store slots vget nth_error obind vset length Nat.ltb Nat.leb upd unknown].
      apply dps_put_loop_ok; assumption. }
    cbn [app]. split; [split; [|constructor]|].
    { repeat (constructor; [cbn; auto; try apply map_br|]); constructor. }
    split; [repeat constructor; discriminate|]. cbn. now rewrite !ub, map_ub.
  Qed.
End Floats.

Ltac at_member i pre :=
  match goal with |- context [add_members i ?vs (Message ?l ?us)] =>
    let rest := eval cbn in (skipn i l) in
    match rest with Many ?old :: ?post =>
      let W := fresh in pose proof (add_members_at i vs pre post old us eq_refl) as W; cbn [app] in W; rewrite W; clear W
    end
  end; cbn [obind].

Section Wishart.
  Context {F : Set} (bits : F -> Z) (unbits : Z -> F).
  Hypothesis ub : forall x, unbits (bits x) = x.
  Hypothesis br : forall x, 0 <= bits x < 2 ^ 32.

  Definition niw_shared_schema := [repeated TFloat 1; required TFloat 2; repeated TFloat 3; required TFloat 4].
  Definition niw_schema := [required TInt32 1; repeated TFloat 2; repeated TFloat 3].

  Lemma niw_shared_placed d x m0 : message_of d niw_shared_schema m0 ->
    placed d niw_shared_schema (niw_shared_put bits) (niw_shared_get unbits) x m0.
  Proof.
    intro H. unfold placed, niw_shared_put.
    rewrite (cleared "NormalInverseWishart.Shared" _ niw_shared_schema d m0) by (cbn; tauto || exact H).
    destruct x as [u k p n]. eexists. split.
    { unfold empty_message, niw_shared_schema. cbn [map f_label repeated required wsm_mu wsm_kappa wsm_psi wsm_nu].
      at_member 0%nat (@nil slot).
      unfold set_member. cbn [store slots vget nth_error obind vset length Nat.ltb Nat.leb upd unknown].
      at_member 2%nat [Many (map bits u); One (Some (bits k))].
      cbn [store slots vget nth_error obind vset length Nat.ltb Nat.leb upd unknown]. reflexivity. }
    split; [split; [|constructor]|].
    { repeat (constructor; [cbn; auto; try (apply map_br; exact br)|]); constructor. }
    split; [repeat constructor; discriminate|]. cbn. now rewrite !ub, !(map_ub bits unbits ub).
  Qed.
  Lemma niw_placed d x m0 : - 2 ^ 31 <= wm_count x < 2 ^ 31 -> message_of d niw_schema m0 ->
    placed d niw_schema (niw_put bits) (niw_get unbits) x m0.
  Proof.
    intros A H. unfold placed, niw_put.
    rewrite (cleared "NormalInverseWishart.Group" _ niw_schema d m0) by (cbn; tauto || exact H).
    destruct x as [n s t]. cbn [wm_count] in A. eexists. split.
    { unfold empty_message, niw_schema. cbn [map f_label repeated required wm_count wm_sum_x wm_sum_xxT].
      unfold set_member. cbn [store slots vget nth_error obind vset length Nat.ltb Nat.leb upd unknown].
      at_member 1%nat [One (Some n)]. at_member 2%nat [One (Some n); Many (map bits s)]. reflexivity. }
    cbn [app]. split; [split; [|constructor]|].
    { repeat (constructor; [cbn; auto; try (apply map_br; exact br)|]); constructor. }
    split; [repeat constructor; discriminate|]. cbn. now rewrite !(map_ub bits unbits ub).
  Qed.

  Context {N : Num F}.

  Definition niw_shape (dim : nat) (g : niw_group F) : Prop :=
    (i32_min <= nw_count g <= i32_max) /\ length (nw_sum_x g) = dim /\ length (nw_sum_xxT g) = dim
    /\ Forall (fun r => length r = dim) (nw_sum_xxT g).

  Lemma zip_len {A B C} (f : A -> B -> outcome C) x : forall y z, zip_with f x y = Ok z -> length z = length x.
  Proof.
    induction x as [|a x IH]; intros [|b y] z E; cbn in E; try discriminate; [now injection E as <-|].
    apply obind_ok in E as (c & _ & E). apply obind_ok in E as (r & Er & E). injection E as <-. cbn. f_equal. eauto.
  Qed.
  Lemma zip_rows (f : F -> F -> F) dim x : forall y z, m_bin f x y = Ok z -> Forall (fun r => length r = dim) x -> Forall (fun r => length r = dim) z.
  Proof.
    unfold m_bin. induction x as [|a x IH]; intros [|b y] z E H; cbn in E; try discriminate; [now injection E as <-|].
    apply obind_ok in E as (c & Ec & E). apply obind_ok in E as (r & Er & E). injection E as <-.
    inversion H; subst. constructor; [|eauto]. unfold v_bin in Ec. rewrite (zip_len _ _ _ _ Ec). reflexivity.
  Qed.

  Lemma niw_group_shape dl (sh : niw_shared F) ops g :
    grun (NIW F) dl sh (c_init (NIW F) sh) ops = Ok g -> niw_shape (niw_dim sh) g.
  Proof.
    intro E. refine (grun_inv (NIW F) dl sh (niw_shape (niw_dim sh)) _ _ _ _ _ ops _ _ _ E); clear ops g E.
    1, 6: split; [cbn; unfold i32_min, i32_max; lia|]; split; [apply repeat_length|]; split; [apply repeat_length|];
      cbn; apply Forall_forall; intros r Hr; apply repeat_spec in Hr; subst r; apply repeat_length.
    all: intros; cbn [c_add c_rep c_rem c_merge NIW] in *; unfold niw_add, niw_rep, niw_rem, niw_merge in *;
      repeat match goal with K : obind _ _ = Ok _ |- _ => apply obind_ok in K as (? & ? & K) end;
      match goal with K : Ok _ = Ok _ |- _ => injection K as <- end;
      repeat match goal with K : niw_shape _ _ |- _ => destruct K as (? & ? & ? & ?) end;
      match goal with K : i32 _ = Ok _ |- _ => apply i32_inv in K as [_ K] end;
      split; [assumption|]; split; [eapply eq_trans; [eapply zip_len; eassumption|assumption]|];
      split; [eapply eq_trans; [eapply zip_len; eassumption|assumption]|]; eapply zip_rows; eassumption.
  Qed.

  Lemma niw_load_shape dl dim g : (dl < 3)%nat -> (0 < dim)%nat -> niw_shape dim g -> niw_load dl (niw_dump g) = Ok g.
  Proof.
    intros Hd Hp (_ & Hx & Ht & Hr). unfold niw_load, niw_dump. cbn [wm_count wm_sum_x wm_sum_xxT].
    rewrite (concat_length_sq _ dim Hr), load_vec_id, Hx, Ht.
    destruct (Nat.ltb_spec 0 dim); [|lia]. rewrite Nat.eqb_refl. cbn [dassert obind].
    rewrite (load_mat_id _ dim Ht Hr). cbn [obind]. unfold dassert3. destruct (Nat.leb_spec 3 dl); [lia|]. cbn [obind].
    rewrite Hx, Ht, Nat.eqb_refl. cbn [dassert obind]. now destruct g.
  Qed.
End Wishart.

Lemma schema_named n sch sch' : In (n, sch) schema_proto -> In (n, sch') schema_proto -> sch = sch'.
Proof.
  intros A B. pose proof names_distinct as D. revert A B D. generalize schema_proto. clear.
  induction l as [|[k s] l IH]; intros A B D; [destruct A|]. cbn [map fst] in D. inversion D as [|? ? Hn D']; subst.
  assert (K : forall s', In (k, s') l -> False) by (intros s' H; apply Hn; exact (in_map fst l (k, s') H)).
  destruct A as [A|A], B as [B|B]; [congruence| | |auto].
  - injection A as -> ->. destruct (K _ B).
  - injection B as -> ->. destruct (K _ A).
Qed.
Lemma is_message_of d n sch m : In (n, sch) schema_proto -> is_message d n m -> message_of d sch m.
Proof. intros H (sch' & H' & M). now rewrite (schema_named n sch sch' H H'). Qed.

(** ** Bytes from anywhere *)
Lemma from_bytes_safe {X A} name c sch room d (get : message -> outcome X) (load : X -> outcome A) l :
  In (name, c) schema_pb -> In (name, sch) schema_proto -> Forall (fun x => 0 <= x < 256) l ->
  (forall m, message_of d sch m -> exists x, get m = Ok x /\ load x <> UB) ->
  from_bytes room d c get load l <> UB.
Proof.
  intros Hc Hs Hl G. unfold from_bytes. destruct (parse_total name c sch Hc Hs room room d l) as (r & E & _). rewrite E. cbn [obind].
  destruct r as [m|]; [|discriminate]. destruct (parse_sound name c sch Hc Hs room d l m Hl E) as [M _].
  destruct (G m M) as (x & -> & L). exact L.
Qed.

Ltac named := cbn [schema_proto schema_pb In]; repeat first [left; reflexivity | right].

Ltac got := let m := fresh in let M := fresh in intros m M; open_message M;
  repeat match goal with o : option Z |- _ => destruct o end; eexists; (split; [reflexivity|]); try discriminate.

Lemma any_bytes : forall (F : Set) (N : Num F) (unbits : Z -> F) ldlt dl max_dim room d l, Forall (fun x => 0 <= x < 256) l ->
  from_bytes room d BetaBernoulli_Shared_code (bb_shared_get unbits) (fun x => Ok (bb_shared_load x)) l <> UB /\
  from_bytes room d BetaBernoulli_Group_code bb_get (fun x => Ok (bb_load x)) l <> UB /\
  from_bytes room d GammaPoisson_Shared_code (gp_shared_get unbits) (fun x => Ok (gp_shared_load x)) l <> UB /\
  from_bytes room d GammaPoisson_Group_code (gp_get unbits) (fun x => Ok (gp_load x)) l <> UB /\
  from_bytes room d BetaNegativeBinomial_Shared_code (bnb_shared_get unbits) (fun x => Ok (bnb_shared_load x)) l <> UB /\
  from_bytes room d BetaNegativeBinomial_Group_code bnb_get (fun x => Ok (bnb_load x)) l <> UB /\
  from_bytes room d NormalInverseChiSq_Shared_code (nich_shared_get unbits) (fun x => Ok (nich_shared_load x)) l <> UB /\
  from_bytes room d NormalInverseChiSq_Group_code (nich_get unbits) (fun x => Ok (nich_load x)) l <> UB /\
  from_bytes room d DirichletDiscrete_Shared_code (dd_shared_get unbits) (dd_shared_load max_dim) l <> UB /\
  from_bytes room d NormalInverseWishart_Shared_code (niw_shared_get unbits) (niw_shared_load ldlt dl) l <> UB /\
  from_bytes room d NormalInverseWishart_Group_code (niw_get unbits) (niw_load dl) l <> UB /\
  from_bytes room d Clustering_PitmanYor_code (py_get unbits) (fun x => Ok (py_load x)) l <> UB /\
  from_bytes room d Clustering_LowEntropy_code le_get (fun x => Ok (le_load x)) l <> UB.
Proof.
  intros F N unbits ldlt dl max_dim room d l Hl.
  split; [|split; [|split; [|split; [|split; [|split; [|split; [|split; [|split; [|split; [|split; [|split]]]]]]]]]]].
  - eapply (from_bytes_safe "BetaBernoulli.Shared"); [named|named|exact Hl|]. got.
  - eapply (from_bytes_safe "BetaBernoulli.Group"); [named|named|exact Hl|]. got.
  - eapply (from_bytes_safe "GammaPoisson.Shared"); [named|named|exact Hl|]. got.
  - eapply (from_bytes_safe "GammaPoisson.Group"); [named|named|exact Hl|]. got.
  - eapply (from_bytes_safe "BetaNegativeBinomial.Shared"); [named|named|exact Hl|]. got.
  - eapply (from_bytes_safe "BetaNegativeBinomial.Group"); [named|named|exact Hl|]. got.
  - eapply (from_bytes_safe "NormalInverseChiSq.Shared"); [named|named|exact Hl|]. got.
  - eapply (from_bytes_safe "NormalInverseChiSq.Group"); [named|named|exact Hl|]. got.
  - eapply (from_bytes_safe "DirichletDiscrete.Shared"); [named|named|exact Hl|]. got. unfold dd_shared_load.
    match goal with |- context [dassert ?b] => destruct b end; [|discriminate]. cbn [dassert obind].
    match goal with |- context [length ?k] => pose proof (ProtoProof.load_loop k []) as W; cbn [app length] in W; rewrite W end. discriminate.
  - eapply (from_bytes_safe "NormalInverseWishart.Shared"); [named|named|exact Hl|]. got.
    all: match goal with |- niw_shared_load ?a ?b ?x <> UB => destruct (niw_shared_load_any a b x) as [E|(g & E & _)]; rewrite E; discriminate end.
  - eapply (from_bytes_safe "NormalInverseWishart.Group"); [named|named|exact Hl|]. got.
    all: match goal with |- niw_load ?b ?x <> UB => destruct (niw_load_any b x) as [E|(g & E & _)]; rewrite E; discriminate end.
  - eapply (from_bytes_safe "Clustering.PitmanYor"); [named|named|exact Hl|]. got.
  - eapply (from_bytes_safe "Clustering.LowEntropy"); [named|named|exact Hl|]. got.
Qed.

Lemma file_trip : forall name c sch d ms,
  In (name, c) schema_pb -> In (name, sch) schema_proto ->
  Forall (fun m => message_of d sch m /\ complete sch m /\ exists l, records_bytes (message_records sch m) l /\ Z.of_nat (length l) < 2 ^ 31) ms ->
  exists ls f, Forall2 (fun m l => serialize_to_string c m = Ok l) ms ls
    /\ protobuf_stream_dump ls = Ok f /\ framed ls f /\ drains protobuf_stream_read f ls Stopped
    /\ Forall2 (fun l m => forall room, parse room d c l = Ok (Some m)) ls ms.
Proof.
  intros name c sch d ms Hc Hs H.
  assert (A : exists ls, Forall2 (fun m l => serialize_to_string c m = Ok l) ms ls
    /\ Forall (fun l => Z.of_nat (length l) < 4294967296) ls /\ Forall2 (fun l m => forall room, parse room d c l = Ok (Some m)) ls ms).
  { induction H as [|m ms (M & C & l0 & B0 & L0) _ (ls & A1 & A2 & A3)]; [exists []; repeat constructor|].
    destruct (round_trip_full name c sch Hc Hs d m M C) as (l & S & B & Z & P).
    assert (l = l0) as ->.
    { pose proof (records_fit d sch m (proj2 (code_of _ _ _ Hc Hs)) M) as Fi.
      rewrite (records_bytes_write d _ _ B Fi), (records_bytes_write d _ _ B0 Fi). reflexivity. }
    exists (l0 :: ls). split; [constructor; [now apply Z|exact A1]|]. split; [constructor; [lia|exact A2]|constructor; [exact P|exact A3]]. }
  destruct A as (ls & A1 & A2 & A3). destruct (writes_framed ls [] A2) as (f & E & HF).
  exists ls, f. split; [exact A1|]. split; [exact E|]. split; [exact HF|]. split; [exact (framed_read _ _ HF)|exact A3].
Qed.
