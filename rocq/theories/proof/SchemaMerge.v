(** The generated code of every schema: has-bits, sizes, merging, clearing, equality. *)
From Verif.model Require Import Base Wire SchemaCode.
From Verif.spec Require Import WireSpec.
From Verif.proof Require Import WireProof SchemaGen SchemaWrite.
Local Open Scope Z_scope.

(** * Has-bits *)

Definition hb (i : nat) (sub : schema) (ss : list slot) : Z :=
  fold_right Z.lor 0 (map (fun hs => match fst hs with
                                     | Some b => if present (snd hs) then b else 0
                                     | None => 0
                                     end)
    (combine (mapi (fun i f _ => if is_rep f then None else Some (2 ^ Z.of_nat i)) i sub) ss)).

Definition here (f : field) (s : slot) : bool := negb (is_rep f) && present s.

Lemma pow2_bit i j : Z.testbit (2 ^ Z.of_nat i) (Z.of_nat j) = Nat.eqb i j.
Proof.
  rewrite Z.pow2_bits_eqb by lia. destruct (Nat.eqb_spec i j), (Z.eqb_spec (Z.of_nat i) (Z.of_nat j)); auto; lia.
Qed.

Lemma hb_bit sub : forall ss i j, length ss = length sub ->
  Z.testbit (hb i sub ss) (Z.of_nat (i + j)) =
  match nth_error sub j, nth_error ss j with Some f, Some s => here f s | _, _ => false end
  /\ (forall k, (k < i)%nat -> Z.testbit (hb i sub ss) (Z.of_nat k) = false).
Proof.
  induction sub as [|f t IH]; intros [|s ss] i j Hl; try discriminate.
  - cbn. split; [|intros; apply Z.testbit_0_l]. rewrite Z.testbit_0_l. destruct j; reflexivity.
  - injection Hl as Hl. unfold hb. cbn [mapi combine map fold_right fst snd].
    change (fold_right Z.lor 0 _) with (hb (S i) t ss).
    set (x := match (if is_rep f then None else Some (2 ^ Z.of_nat i)) with
              | Some b => if present s then b else 0 | None => 0 end).
    assert (X : forall k, Z.testbit x (Z.of_nat k) = here f s && Nat.eqb i k).
    { intros k. unfold x, here. destruct (is_rep f), (present s); cbn [negb andb];
        rewrite ?pow2_bit, ?Z.testbit_0_l; reflexivity. }
    split.
    + rewrite Z.lor_spec, X. destruct j as [|j]; cbn [nth_error].
      * destruct (IH ss (S i) 0%nat Hl) as [_ B]. rewrite B by lia.
        rewrite Nat.add_0_r, Nat.eqb_refl, Bool.andb_true_r, Bool.orb_false_r. reflexivity.
      * destruct (IH ss (S i) j Hl) as [A _]. replace (i + S j)%nat with (S i + j)%nat by lia. rewrite A.
        replace (Nat.eqb i (S i + j)) with false by (symmetry; apply Nat.eqb_neq; lia).
        rewrite Bool.andb_false_r. reflexivity.
    + intros k Hk. rewrite Z.lor_spec, X. destruct (IH ss (S i) 0%nat Hl) as [_ B]. rewrite B by lia.
      replace (Nat.eqb i k) with false by (symmetry; apply Nat.eqb_neq; lia).
      rewrite Bool.andb_false_r. reflexivity.
Qed.

Lemma has_bits_bit sch m j : shaped sch m ->
  Z.testbit (has_bits (protoc sch) m) (Z.of_nat j) =
  match nth_error sch j, nth_error (slots m) j with Some f, Some s => here f s | _, _ => false end.
Proof.
  intros H. apply Forall2_len in H. destruct (hb_bit sch (slots m) 0 j (eq_sym H)) as [A _]. exact A.
Qed.

Lemma gen_init_bit sub : forall i j,
  Z.testbit (gen_init i sub) (Z.of_nat (i + j)) =
  match nth_error sub j with Some f => negb (is_rep f) | None => false end
  /\ (forall k, (k < i)%nat -> Z.testbit (gen_init i sub) (Z.of_nat k) = false).
Proof.
  induction sub as [|f t IH]; intros i j; cbn [gen_init].
  - split; [|intros; apply Z.testbit_0_l]. rewrite Z.testbit_0_l. destruct j; reflexivity.
  - set (x := if is_rep f then 0 else 2 ^ Z.of_nat i).
    assert (X : forall k, Z.testbit x (Z.of_nat k) = negb (is_rep f) && Nat.eqb i k).
    { intros k. unfold x. destruct (is_rep f); cbn [negb andb]; rewrite ?pow2_bit, ?Z.testbit_0_l; reflexivity. }
    split.
    + rewrite Z.lor_spec, X. destruct j as [|j]; cbn [nth_error].
      * destruct (IH (S i) 0%nat) as [_ B]. rewrite B by lia.
        rewrite Nat.add_0_r, Nat.eqb_refl, Bool.andb_true_r, Bool.orb_false_r. reflexivity.
      * destruct (IH (S i) j) as [A _]. replace (i + S j)%nat with (S i + j)%nat by lia. rewrite A.
        replace (Nat.eqb i (S i + j)) with false by (symmetry; apply Nat.eqb_neq; lia).
        rewrite Bool.andb_false_r. reflexivity.
    + intros k Hk. rewrite Z.lor_spec, X. destruct (IH (S i) 0%nat) as [_ B]. rewrite B by lia.
      replace (Nat.eqb i k) with false by (symmetry; apply Nat.eqb_neq; lia).
      rewrite Bool.andb_false_r. reflexivity.
Qed.

Lemma Forall2_of_nth {A B} (R : A -> B -> Prop) : forall l l', length l = length l' ->
  (forall j a b, nth_error l j = Some a -> nth_error l' j = Some b -> R a b) -> Forall2 R l l'.
Proof.
  induction l as [|a l IH]; intros [|b l'] Hl H; try discriminate; constructor.
  - apply (H 0%nat); reflexivity.
  - apply IH; [injection Hl; auto|]. intros j. exact (H (S j)).
Qed.

Theorem is_initialized_ok sch m : shaped sch m -> is_initialized (protoc sch) m = true <-> complete sch m.
Proof.
  intros Hs. pose proof (Forall2_len _ _ _ Hs) as Hl. unfold is_initialized. rewrite Z.eqb_eq.
  unfold complete. split.
  - intros H. apply Forall2_of_nth; auto. intros j f s Hf Hss Hr E. subst s.
    assert (T : Z.testbit (Z.land (has_bits (protoc sch) m) (c_init (protoc sch))) (Z.of_nat j) =
                Z.testbit (c_init (protoc sch)) (Z.of_nat j)) by congruence.
    rewrite Z.land_spec, has_bits_bit, Hf, Hss in T by auto.
    destruct (gen_init_bit sch 0 j) as [G _]. cbn [Nat.add] in G. unfold protoc in T. cbn [c_init] in T.
    rewrite G, Hf in T. unfold here, is_rep in T. rewrite Hr in T. discriminate.
  - intros H. apply Z.bits_inj'. intros n Hn. rewrite Z.land_spec.
    rewrite <- (Z2Nat.id n Hn). set (j := Z.to_nat n).
    destruct (gen_init_bit sch 0 j) as [G _]. cbn [Nat.add] in G. rewrite has_bits_bit by auto.
    unfold protoc. cbn [c_init]. rewrite G.
    destruct (nth_error sch j) as [f|] eqn:Ef; [|reflexivity].
    destruct (Forall2_nth _ _ _ _ _ H Ef) as (s & Es & Hr). rewrite Es.
    destruct (Forall2_nth _ _ _ _ _ Hs Ef) as (s' & Es' & Hsh). assert (s' = s) by congruence. subst s'.
    unfold here, is_rep, shape_ok in *. destruct (f_label f); cbn [negb andb].
    + specialize (Hr eq_refl). destruct s as [[v|]|vs]; try contradiction; try congruence. reflexivity.
    + destruct (present s); reflexivity.
Qed.

Lemma has_any_false sch m : wf sch -> shaped sch m -> has_any (protoc sch) m = false ->
  forall j f s, nth_error sch j = Some f -> nth_error (slots m) j = Some s -> is_rep f = false -> s = One None.
Proof.
  intros (_ & _ & Hw) Hs H j f s Hf Hss Hr. unfold has_any in H. apply Bool.negb_false_iff, Z.eqb_eq in H.
  assert (T : Z.testbit (Z.land (has_bits (protoc sch) m) 255) (Z.of_nat j) = false)
    by (rewrite H; apply Z.testbit_0_l).
  rewrite Z.land_spec, has_bits_bit, Hf, Hss in T by auto.
  assert (Hj : (j < 8)%nat) by (assert (j < length sch)%nat by (apply nth_error_Some; congruence); lia).
  replace (Z.testbit 255 (Z.of_nat j)) with true in T
    by (do 8 (destruct j as [|j]; [reflexivity|]); lia).
  destruct (Forall2_nth _ _ _ _ _ Hs Hf) as (s' & Es' & Hsh). assert (s' = s) by congruence. subst s'.
  unfold here, shape_ok, is_rep in *. rewrite Bool.andb_true_r in T. destruct (f_label f); [|discriminate].
  destruct s as [[v|]|vs]; try contradiction; [discriminate|reflexivity].
Qed.

(** * Sizes *)

Definition flen (f : field) (s : slot) : Z := Z.of_nat (length (write_records (map (value_record f) (slot_values s)))).

Fixpoint psum (k : kind) (vs : list Z) : Z := match vs with [] => 0 | v :: t => prim_size k v + psum k t end.

Lemma psum_ge k vs : Z.of_nat (length vs) <= psum k vs.
Proof. induction vs as [|v t IH]; cbn [psum length]; [lia|]. pose proof (prim_size_pos k v). lia. Qed.

Lemma tag_length n w : 1 <= n < 16 -> 0 <= w < 8 -> length (write_tag n w) = 1%nat.
Proof.
  intros Hn Hw. unfold write_tag, write_varint. cbn [write_varint_aux].
  assert (0 <= make_tag n w < 128) by (unfold make_tag; lia).
  destruct (Z.ltb_spec (make_tag n w) 128); [reflexivity|lia].
Qed.

Lemma flen_eq f s : 1 <= f_number f < 16 -> slot_ok f s ->
  flen f s = Z.of_nat (length (slot_values s)) + psum (kind_of (f_type f)) (slot_values s).
Proof.
  intros Hn Hs. apply slot_values_ok in Hs. unfold flen. induction Hs as [|v vs Hv Hvs IH]; [reflexivity|].
  cbn [map]. unfold write_records. cbn [map concat]. rewrite app_length.
  change (concat (map write_record (map (value_record f) vs))) with (write_records (map (value_record f) vs)).
  rewrite Nat2Z.inj_add, IH. cbn [psum length]. rewrite write_value, app_length.
  rewrite tag_length by (auto; destruct (kind_of (f_type f)); lia).
  rewrite (prim_size_ok (kind_of (f_type f)) v) by (apply in_kind_type; auto). lia.
Qed.

Lemma i32_ok z : i32_min <= z <= i32_max -> i32 z = Ok z.
Proof.
  intros H. unfold i32. rewrite (proj2 (Z.leb_le _ _)), (proj2 (Z.leb_le _ _)) by lia. reflexivity.
Qed.

Lemma data_size_ok k vs : forall acc, 0 <= acc -> acc + psum k vs <= i32_max -> data_size k acc vs = Ok (acc + psum k vs).
Proof.
  induction vs as [|v t IH]; intros acc Ha Hm; cbn [data_size psum] in *.
  - rewrite Z.add_0_r. reflexivity.
  - pose proof (prim_size_pos k v). pose proof (psum_ge k t).
    rewrite i32_ok by (unfold i32_min in *; lia). cbn [obind]. rewrite IH by lia. f_equal. lia.
Qed.

Lemma psum_float vs : psum KFloat vs = 4 * Z.of_nat (length vs).
Proof. induction vs as [|v t IH]; cbn [psum length prim_size]; lia. Qed.

Lemma size_stmt_ok m i f s total : vget (slots m) i = Ok s -> 1 <= f_number f < 16 -> slot_ok f s ->
  0 <= total -> total + flen f s <= i32_max ->
  size_stmt m total (if is_rep f then ZRep i 1 (kind_of (f_type f)) else ZOne i 1 (kind_of (f_type f)))
  = Ok (total + flen f s).
Proof.
  intros V Hn Hs Ht Hm. rewrite flen_eq in * by auto.
  pose proof (psum_ge (kind_of (f_type f)) (slot_values s)) as G.
  unfold is_rep, slot_ok in *. destruct (f_label f); destruct s as [[v|]|vs]; try contradiction;
    cbn [size_stmt]; rewrite V; cbn [obind slot_values psum length] in *.
  - rewrite i32_ok by (unfold i32_min; lia). f_equal. lia.
  - f_equal. lia.
  - rewrite i32_ok by (unfold i32_min; lia). cbn [obind].
    assert (D : (match kind_of (f_type f) with
                 | KFloat => i32 (4 * Z.of_nat (length vs))
                 | _ => data_size (kind_of (f_type f)) 0 vs
                 end) = Ok (psum (kind_of (f_type f)) vs)).
    { destruct (kind_of (f_type f)) eqn:E.
      - rewrite psum_float in *. apply i32_ok. unfold i32_min. lia.
      - rewrite data_size_ok by lia. reflexivity.
      - rewrite data_size_ok by lia. reflexivity.
      - rewrite data_size_ok by lia. reflexivity. }
    rewrite D. cbn [obind]. rewrite i32_ok by (unfold i32_min; lia). cbn [obind].
    rewrite i32_ok by (unfold i32_min; lia). cbn [obind]. rewrite i32_ok by (unfold i32_min; lia). f_equal. lia.
Qed.

Fixpoint fsum (b : bool) (sub : schema) (ss : list slot) : Z :=
  match sub, ss with
  | f :: t, s :: r => (if Bool.eqb (is_rep f) b then flen f s else 0) + fsum b t r
  | _, _ => 0
  end.

Lemma flen_pos f s : 0 <= flen f s.
Proof. unfold flen. lia. Qed.

Lemma fsum_pos b sub : forall ss, 0 <= fsum b sub ss.
Proof.
  induction sub as [|f t IH]; intros [|s ss]; cbn [fsum]; try lia. specialize (IH ss).
  pose proof (flen_pos f s). destruct (Bool.eqb (is_rep f) b); lia.
Qed.

Lemma fsum_both sub : forall ss, fsum true sub ss + fsum false sub ss = Z.of_nat (length (write_records (recs sub ss))).
Proof.
  induction sub as [|f t IH]; intros [|s ss]; cbn [fsum]; try reflexivity.
  unfold recs. cbn [combine map concat fst snd]. fold (recs t ss). rewrite write_records_app, app_length, Nat2Z.inj_add.
  rewrite <- IH. fold (flen f s). destruct (is_rep f); cbn [Bool.eqb]; lia.
Qed.

Lemma size_stmts_ok b m sub : forall pre ss total, slots m = pre ++ ss -> Forall2 slot_ok sub ss ->
  Forall (fun f => 1 <= f_number f < 16) sub -> 0 <= total -> total + fsum b sub ss <= i32_max ->
  size_stmts m total (gen_size b (length pre) sub) = Ok (total + fsum b sub ss).
Proof.
  induction sub as [|f t IH]; intros pre ss total Hm H Hn Ht Hs; cbn [gen_size].
  - cbn [fsum size_stmts]. rewrite Z.add_0_r. reflexivity.
  - apply Forall2_cons_inv in H as (s & ss1 & -> & H1 & H2). apply Forall_cons_iff in Hn as [Hn1 Hn2].
    assert (V : vget (slots m) (length pre) = Ok s).
    { apply nth_error_vget. rewrite Hm, nth_error_app2, Nat.sub_diag by lia. reflexivity. }
    cbn [fsum] in *. pose proof (flen_pos f s). pose proof (fsum_pos b t ss1).
    replace (S (length pre)) with (length (pre ++ [s])) by (rewrite app_length; simpl; lia).
    assert (Hm' : slots m = (pre ++ [s]) ++ ss1) by (rewrite Hm, <- app_assoc; reflexivity).
    destruct (Bool.eqb (is_rep f) b); cbn [app size_stmts].
    + rewrite (size_stmt_ok m _ f s) by (auto; lia). cbn [obind]. rewrite (IH _ ss1) by (auto; lia). f_equal. lia.
    + rewrite (IH _ ss1) by (auto; lia). f_equal.
Qed.

Lemma fsum_absent sub : forall ss, Forall2 slot_ok sub ss ->
  (forall j f s, nth_error sub j = Some f -> nth_error ss j = Some s -> is_rep f = false -> s = One None) ->
  fsum false sub ss = 0.
Proof.
  induction sub as [|f t IH]; intros ss H A.
  - reflexivity.
  - apply Forall2_cons_inv in H as (s & ss1 & -> & H1 & H2). cbn [fsum].
    rewrite (IH ss1 H2) by (intros j; exact (A (S j))).
    destruct (is_rep f) eqn:E; cbn [Bool.eqb]; [reflexivity|].
    rewrite (A 0%nat f s eq_refl eq_refl E). reflexivity.
Qed.

Lemma records_size_write d rs : Forall (fits d) rs -> records_size rs = Z.of_nat (length (write_records rs)).
Proof. intros H. eapply records_size_ok; eauto. Qed.

Theorem byte_size_ok d sch m : wf sch -> message_of d sch m ->
  Z.of_nat (length (write_records (message_records sch m))) <= i32_max ->
  byte_size (protoc sch) m = Ok (Z.of_nat (length (write_records (message_records sch m)))).
Proof.
  intros W Hm. pose proof (message_of_shaped _ _ _ Hm) as Hsh. destruct Hm as [H1 H2].
  rewrite message_records_eq, write_records_app, app_length, Nat2Z.inj_add, <- fsum_both. intros L.
  pose proof (fsum_pos true sch (slots m)). pose proof (fsum_pos false sch (slots m)).
  unfold byte_size.
  assert (A : (if has_any (protoc sch) m then size_stmts m 0 (c_size_one (protoc sch)) else Ok 0)
              = Ok (fsum false sch (slots m))).
  { destruct (has_any (protoc sch) m) eqn:E.
    - unfold protoc. cbn [c_size_one].
      pose proof (size_stmts_ok false m sch [] (slots m) 0 eq_refl H1 (proj1 (proj2 W))) as S. cbn [length] in S.
      rewrite S by lia. reflexivity.
    - rewrite fsum_absent; auto. exact (has_any_false sch m W Hsh E). }
  rewrite A. cbn [obind]. unfold protoc. cbn [c_size_rep].
  pose proof (size_stmts_ok true m sch [] (slots m) (fsum false sch (slots m)) eq_refl H1 (proj1 (proj2 W))) as S.
  cbn [length] in S. rewrite S by lia. cbn [obind].
  assert (U : records_size (unknown m) = Z.of_nat (length (write_records (unknown m)))).
  { apply (records_size_write d). eapply Forall_impl; [|exact H2]. intros r [Hr _]. exact Hr. }
  destruct (unknown m) as [|u us] eqn:Eu.
  - f_equal. cbn [write_records map concat length]. change (Z.of_nat (length (write_records []))) with 0. lia.
  - rewrite U. rewrite i32_ok by (unfold i32_min; lia). cbn [obind].
    rewrite i32_ok by (unfold i32_min; lia). f_equal. lia.
Qed.

Theorem serialize_to_string_ok d sch m : wf sch -> message_of d sch m ->
  Z.of_nat (length (write_records (message_records sch m))) <= i32_max ->
  serialize_to_string (protoc sch) m = Ok (write_records (message_records sch m)).
Proof.
  intros W Hm L. unfold serialize_to_string. rewrite (byte_size_ok d) by auto. cbn [obind].
  change (write_stmts m (c_write_array (protoc sch))) with (serialize (protoc sch) m).
  rewrite serialize_ok by (eapply message_of_shaped; eauto). cbn [obind]. rewrite Z.eqb_refl. reflexivity.
Qed.

Lemma records_injective d sch x y : wf sch -> message_of d sch x -> message_of d sch y ->
  write_records (message_records sch x) = write_records (message_records sch y) -> x = y.
Proof.
  intros W Hx Hy E. pose proof (round_trip sch W d (fun _ => 0%nat) x Hx) as A.
  rewrite E, (round_trip sch W d) in A by auto. congruence.
Qed.

Theorem message_eq_ok d sch x y : wf sch -> message_of d sch x -> message_of d sch y ->
  Z.of_nat (length (write_records (message_records sch x))) <= i32_max ->
  Z.of_nat (length (write_records (message_records sch y))) <= i32_max ->
  exists b, message_eq (protoc sch) x y = Ok b /\ (b = true <-> x = y).
Proof.
  intros W Hx Hy Lx Ly. unfold message_eq. rewrite !(serialize_to_string_ok d) by auto. cbn [obind].
  eexists; split; [reflexivity|]. destruct (list_eq_dec Z.eq_dec _ _) as [E|N].
  - split; auto. intros _. eapply records_injective; eauto.
  - split; [discriminate|]. intros ->. congruence.
Qed.

(** * Clear, MergeFrom, CopyFrom *)

Lemma indices_in b sub : forall i x, In x (indices b i sub) <->
  (i <= x)%nat /\ exists f, nth_error sub (x - i) = Some f /\ is_rep f = b.
Proof.
  induction sub as [|f t IH]; intros i x; cbn [indices].
  - split; [intros []|]. intros (_ & g & Hg & _). destruct (x - i)%nat; discriminate.
  - assert (K : In x (indices b (S i) t) <-> (S i <= x)%nat /\ exists g, nth_error (f :: t) (x - i) = Some g /\ is_rep g = b).
    { rewrite IH. split; intros (L & g & Hg & E); split; auto; exists g; split; auto.
      - replace (x - i)%nat with (S (x - S i)) by lia. exact Hg.
      - replace (x - i)%nat with (S (x - S i)) in Hg by lia. exact Hg. }
    destruct (Bool.eqb (is_rep f) b) eqn:E.
    + apply Bool.eqb_prop in E. cbn [In]. rewrite K. split.
      * intros [<-|(L & H)]; [|split; [lia|auto]]. split; [lia|]. exists f. rewrite Nat.sub_diag. auto.
      * intros (L & g & Hg & Eg). destruct (Nat.eq_dec i x); [left; auto|right]. split; [lia|]. eauto.
    + rewrite K. split; intros (L & g & Hg & Eg); split; try lia; eauto.
      destruct (Nat.eq_dec i x); [|lia]. subst. rewrite Nat.sub_diag in Hg. cbn in Hg. injection Hg as <-.
      rewrite Bool.eqb_reflx in E. discriminate.
Qed.

Lemma indices_nodup b sub : forall i, NoDup (indices b i sub).
Proof.
  induction sub as [|f t IH]; intros i; cbn [indices]; [constructor|].
  destruct (Bool.eqb (is_rep f) b); auto. constructor; auto. rewrite indices_in. lia.
Qed.

Definition vals (from : message) (x : nat) : list Z :=
  match nth_error (slots from) x with Some s => slot_values s | None => [] end.

Definition pour (from m : message) (x : nat) : message :=
  Message (modify x (add_values (vals from x)) (slots m)) (unknown m).

Lemma shape_adds f vs : forall s, shape_ok f s -> shape_ok f (add_values vs s).
Proof. induction vs as [|v t IH]; intros s H; cbn; auto. apply IH, shape_add. auto. Qed.

Lemma shaped_pour sch from m x : shaped sch m -> shaped sch (pour from m x).
Proof. intros H. apply Forall2_modify; auto. intros f s. apply shape_adds. Qed.

Lemma modify_same i g l s : nth_error l i = Some s -> g s = s -> modify i g l = l.
Proof.
  intros H E. apply nth_error_ext. intros j. rewrite nth_modify. destruct (Nat.eqb_spec i j); auto.
  subst j. rewrite H. cbn. congruence.
Qed.

Lemma merge_rep_ok sch from m x f : shaped sch from -> shaped sch m -> nth_error sch x = Some f -> is_rep f = true ->
  merge_rep from m x = Ok (pour from m x).
Proof.
  intros Hf Hm Hx Hr. unfold merge_rep, pour, vals.
  destruct (Forall2_nth _ _ _ _ _ Hf Hx) as (b & Eb & Sb). destruct (Forall2_nth _ _ _ _ _ Hm Hx) as (a & Ea & Sa).
  rewrite (nth_error_vget _ _ _ Ea), (nth_error_vget _ _ _ Eb), Eb. cbn [obind].
  unfold shape_ok, is_rep in *. destruct (f_label f); [discriminate|].
  destruct a as [|va]; [contradiction|]. destruct b as [|vb]; [contradiction|].
  unfold vset. rewrite (proj2 (Nat.ltb_lt _ _)) by (apply nth_error_Some; congruence).
  cbn [obind slot_values]. rewrite (modify_upd _ _ _ _ Ea), add_values_many. reflexivity.
Qed.

Lemma merge_one_ok sch from m x f : shaped sch from -> shaped sch m -> nth_error sch x = Some f -> is_rep f = false ->
  merge_one from m x = Ok (pour from m x).
Proof.
  intros Hf Hm Hx Hr. unfold merge_one, pour, vals.
  destruct (Forall2_nth _ _ _ _ _ Hf Hx) as (b & Eb & Sb). destruct (Forall2_nth _ _ _ _ _ Hm Hx) as (a & Ea & Sa).
  rewrite (nth_error_vget _ _ _ Eb), Eb. cbn [obind].
  pose proof Hr as Hr'. unfold shape_ok, is_rep in Sb, Hr. destruct (f_label f); [|discriminate].
  destruct b as [[v|]|vb]; [| |contradiction].
  - rewrite <- Hr'. rewrite (store_ok sch m x f v Hm Hx). reflexivity.
  - cbn [slot_values]. rewrite (modify_same _ _ _ a) by auto. destruct m; reflexivity.
Qed.

Lemma merge_list_ok sch from step xs : shaped sch from ->
  (forall m x, In x xs -> shaped sch m -> step m x = Ok (pour from m x)) ->
  forall m, shaped sch m -> merge_list step m xs = Ok (fold_left (pour from) xs m) /\ shaped sch (fold_left (pour from) xs m).
Proof.
  intros Hf. induction xs as [|x xs IH]; intros Hs m Hm; cbn [merge_list fold_left]; auto.
  rewrite Hs by (auto; left; auto). cbn [obind]. apply IH.
  - intros m' x' Hx. apply Hs. right. auto.
  - apply shaped_pour. auto.
Qed.

Lemma pours_nth from xs : NoDup xs -> forall m j,
  nth_error (slots (fold_left (pour from) xs m)) j =
  (if in_dec Nat.eq_dec j xs then option_map (add_values (vals from j)) (nth_error (slots m) j) else nth_error (slots m) j)
  /\ unknown (fold_left (pour from) xs m) = unknown m.
Proof.
  induction 1 as [|x xs Hx Hn IH]; intros m j; cbn [fold_left]; [split; reflexivity|].
  destruct (IH (pour from m x) j) as [A B]. split; [|exact B]. rewrite A. unfold pour at 1 2. cbn [slots].
  rewrite nth_modify.
  destruct (in_dec Nat.eq_dec j xs) as [I|I]; destruct (in_dec Nat.eq_dec j (x :: xs)) as [I'|I'];
    destruct (Nat.eqb_spec x j) as [E|E]; subst; cbn [In] in *; try tauto.
Qed.

Lemma zip_nth : forall ss ss' j, length ss = length ss' ->
  nth_error (zip_slots ss ss') j =
  match nth_error ss j, nth_error ss' j with Some s, Some s' => Some (add_values (slot_values s') s) | _, _ => None end.
Proof.
  induction ss as [|s t IH]; intros [|s' t'] [|j] H; try discriminate; cbn; auto.
Qed.

Definition merged (x m : message) : message :=
  Message (zip_slots (slots m) (slots x)) (unknown m ++ unknown x).

Theorem merge_from_ok sch from m : wf sch -> shaped sch from -> shaped sch m ->
  merge_from (protoc sch) from m = Ok (merged from m).
Proof.
  intros W Hf Hm. unfold merge_from.
  destruct (merge_list_ok sch from (merge_rep from) (indices true 0 sch) Hf) with (m := m) as [A SA]; auto.
  { intros m' x Hx Hm'. apply indices_in in Hx as (_ & f & Ef & Er). rewrite Nat.sub_0_r in Ef.
    eapply merge_rep_ok; eauto. }
  unfold protoc at 1. cbn [c_merge_rep]. rewrite A. cbn [obind].
  set (a := fold_left (pour from) (indices true 0 sch) m) in *.
  destruct (merge_list_ok sch from (merge_one from) (indices false 0 sch) Hf) with (m := a) as [B SB]; auto.
  { intros m' x Hx Hm'. apply indices_in in Hx as (_ & f & Ef & Er). rewrite Nat.sub_0_r in Ef.
    eapply merge_one_ok; eauto. }
  set (b := fold_left (pour from) (indices false 0 sch) a) in *.
  pose proof (Forall2_len _ _ _ Hf) as Lf. pose proof (Forall2_len _ _ _ Hm) as Lm.
  assert (Z : slots b = zip_slots (slots m) (slots from) /\ unknown b = unknown m).
  { split.
    - apply nth_error_ext. intros j. rewrite zip_nth by congruence.
      unfold b. destruct (pours_nth from (indices false 0 sch) (indices_nodup _ _ _) a j) as [-> _].
      unfold a. destruct (pours_nth from (indices true 0 sch) (indices_nodup _ _ _) m j) as [-> _].
      destruct (nth_error sch j) as [f|] eqn:Ef.
      + destruct (Forall2_nth _ _ _ _ _ Hf Ef) as (s & Es & _). destruct (Forall2_nth _ _ _ _ _ Hm Ef) as (s' & Es' & _).
        unfold vals. rewrite Es, Es'.
        destruct (in_dec Nat.eq_dec j (indices true 0 sch)) as [I|I];
          destruct (in_dec Nat.eq_dec j (indices false 0 sch)) as [I'|I']; cbn [option_map]; auto.
        * apply indices_in in I as (_ & g & Eg & Rg). apply indices_in in I' as (_ & g' & Eg' & Rg'). congruence.
        * exfalso. destruct (is_rep f) eqn:R; [apply I|apply I']; apply indices_in; split; try lia; exists f;
            rewrite Nat.sub_0_r; auto.
      + assert (N : nth_error (slots m) j = None) by (apply nth_error_None; apply nth_error_None in Ef; lia).
        rewrite N. destruct (in_dec _ _ _), (in_dec _ _ _); reflexivity.
    - unfold b, a. destruct (pours_nth from (indices false 0 sch) (indices_nodup _ _ _) a 0) as [_ U].
      unfold a in U. rewrite U. apply (pours_nth from (indices true 0 sch) (indices_nodup _ _ _) m 0). }
  assert (C : (if has_any (protoc sch) from then merge_list (merge_one from) a (c_merge_one (protoc sch)) else Ok a) = Ok b).
  { destruct (has_any (protoc sch) from) eqn:E; [exact B|]. f_equal.
    assert (forall xs, (forall x, In x xs -> In x (indices false 0 sch)) -> forall m', shaped sch m' ->
              fold_left (pour from) xs m' = m').
    { induction xs as [|x xs IH]; intros Hxs m' Hm'; cbn [fold_left]; auto.
      assert (P : pour from m' x = m').
      { pose proof (Hxs x (or_introl eq_refl)) as I. apply indices_in in I as (_ & f & Ef & Er).
        rewrite Nat.sub_0_r in Ef. destruct (Forall2_nth _ _ _ _ _ Hf Ef) as (s & Es & _).
        destruct (Forall2_nth _ _ _ _ _ Hm' Ef) as (s' & Es' & _).
        unfold pour, vals. rewrite Es, (has_any_false sch from W Hf E x f s Ef Es Er). cbn [slot_values].
        rewrite (modify_same _ _ _ s') by auto. destruct m'; reflexivity. }
      rewrite P. apply IH; auto. intros y Hy. apply Hxs. right. auto. }
    unfold b. rewrite H; auto. }
  rewrite C. cbn [obind]. destruct Z as [-> ->]. reflexivity.
Qed.

(** MergeFrom is what reading one after the other gives. *)
Lemma absorb_merged d sch x m : wf sch -> shaped sch m -> message_of d sch x ->
  absorb_all sch m (message_records sch x) = Some (merged x m).
Proof. intros. rewrite (absorb_message sch) with (d := d); auto. Qed.

Lemma clear_ok sch m : shaped sch m -> clear (protoc sch) m = empty_message sch.
Proof.
  intros Hm. unfold clear, empty_message, protoc. cbn [c_clear_rep]. f_equal. apply nth_error_ext. intros j.
  assert (K : forall xs l, (forall x, In x xs -> (x < length l)%nat) ->
    nth_error (fold_left (fun ss x => upd ss x (Many [])) xs l) j =
    if in_dec Nat.eq_dec j xs then Some (Many []) else nth_error l j).
  { induction xs as [|x xs IH]; intros l Hl; cbn [fold_left]; [reflexivity|].
    assert (U : upd l x (Many []) = modify x (fun _ => Many []) l).
    { specialize (Hl x (or_introl eq_refl)). apply nth_error_Some in Hl. destruct (nth_error l x) eqn:E; [|congruence].
      symmetry. exact (modify_upd (fun _ => Many []) x l _ E). }
    rewrite U, IH.
    - rewrite nth_modify. destruct (in_dec Nat.eq_dec j xs) as [I|I]; destruct (in_dec Nat.eq_dec j (x :: xs)) as [I'|I'];
        destruct (Nat.eqb_spec x j) as [E|E]; subst; cbn [In] in *; try tauto.
      specialize (Hl j (or_introl eq_refl)). apply nth_error_Some in Hl. destruct (nth_error l j); [reflexivity|congruence].
    - intros y Hy. specialize (Hl y (or_intror Hy)).
      apply nth_error_Some. rewrite nth_modify. apply nth_error_Some in Hl.
      destruct (Nat.eqb x y); destruct (nth_error l y); cbn; congruence. }
  pose proof (Forall2_len _ _ _ Hm) as L.
  rewrite K.
  - rewrite !nth_error_map. destruct (nth_error sch j) as [f|] eqn:Ef.
    + destruct (Forall2_nth _ _ _ _ _ Hm Ef) as (s & Es & Hs). rewrite Es. cbn [option_map].
      unfold shape_ok in Hs. destruct (in_dec Nat.eq_dec j (indices true 0 sch)) as [I|I].
      * apply indices_in in I as (_ & g & Eg & Rg). rewrite Nat.sub_0_r in Eg. assert (g = f) by congruence. subst g.
        unfold is_rep in Rg. destruct (f_label f); [discriminate|reflexivity].
      * destruct (f_label f) eqn:El.
        -- destruct s; [reflexivity|contradiction].
        -- exfalso. apply I, indices_in. split; [lia|]. exists f. rewrite Nat.sub_0_r. unfold is_rep. rewrite El. auto.
    + assert (N : nth_error (slots m) j = None) by (apply nth_error_None; apply nth_error_None in Ef; lia).
      rewrite N. destruct (in_dec Nat.eq_dec j (indices true 0 sch)) as [I|I]; [|reflexivity].
      apply indices_in in I as (_ & g & Eg & Rg). rewrite Nat.sub_0_r in Eg. congruence.
  - intros x I. apply indices_in in I as (_ & g & Eg & Rg). rewrite Nat.sub_0_r in Eg. rewrite map_length, <- L.
    apply nth_error_Some. congruence.
Qed.

Lemma merged_empty sch m : shaped sch m -> merged m (empty_message sch) = m.
Proof. intros H. unfold merged. rewrite zip_empty by auto. destruct m; reflexivity. Qed.

Theorem copy_from_ok sch from m : wf sch -> shaped sch from -> shaped sch m ->
  copy_from (protoc sch) from m = Ok from.
Proof.
  intros W Hf Hm. unfold copy_from. rewrite clear_ok by auto. rewrite (merge_from_ok sch) by (auto; apply shaped_empty).
  rewrite merged_empty; auto.
Qed.

(** * A message whose fields are all required *)

Lemma complete_records sub : forall ss, Forall2 slot_ok sub ss -> Forall (fun f => f_label f = Required) sub ->
  (length (recs sub ss) <= length sub)%nat /\
  (Forall2 (fun f s => f_label f = Required -> s <> One None) sub ss -> length (recs sub ss) = length sub).
Proof.
  induction sub as [|f t IH]; intros ss H R.
  - inversion H. subst. split; auto.
  - apply Forall2_cons_inv in H as (s & ss1 & -> & H1 & H2). apply Forall_cons_iff in R as [R1 R2].
    destruct (IH ss1 H2 R2) as [A B]. unfold recs. cbn [combine map concat fst snd length]. fold (recs t ss1).
    rewrite app_length. unfold slot_ok in H1. rewrite R1 in H1. destruct s as [[v|]|vs]; [| |contradiction].
    + cbn [slot_values map length]. split; [lia|]. intros C. apply Forall2_cons_inv in C as (s & k & E & _ & C).
      injection E as <- <-. rewrite (B C). reflexivity.
    + cbn [slot_values map length]. split; [lia|]. intros C. apply Forall2_cons_inv in C as (s & k & E & C & _).
      injection E as <- <-. specialize (C R1). congruence.
Qed.

Theorem truncated d room sch m a b : wf sch -> Forall (fun f => f_label f = Required) sch ->
  message_of d sch m -> unknown m = [] -> b <> [] ->
  write_records (message_records sch m) = a ++ b -> parse room d (protoc sch) a = Ok None.
Proof.
  intros W R Hm Hu Hb E. unfold parse. destruct (parse_partial room d (protoc sch) a) as [[m'|]| |] eqn:Ep.
  - cbn [obind]. destruct (cut sch W d room m a b m' Hm E Ep) as (rest & Er & Hr). specialize (Hr Hb).
    pose proof Ep as Ep'. rewrite parse_partial_ok in Ep' by auto. unfold P in Ep'.
    assert (Hm' : message_of d sch m').
    { pose proof (decode_written d _ (records_fit d sch m W Hm)) as Dw. rewrite E in Dw.
      rewrite (clipped_prefix _ d b a _ Dw (records_whole sch d m Hm)) in Ep'. clear Dw.
      destruct (decode d a) as [rs|] eqn:Ed; [|discriminate].
      pose proof (decode_app d b a rs Ed) as D. rewrite <- E in D.
      rewrite decode_written in D by (apply records_fit; auto).
      destruct (decode d b) as [vs|] eqn:Eb; [|discriminate]. injection D as D.
      assert (X : absorb_all sch (empty_message sch) rs = Some m') by congruence.
      pose proof (records_fit d sch m W Hm) as F. rewrite D in F. apply Forall_app in F.
      exact (absorb_all_ok sch W d rs _ m' (empty_ok sch d) (proj1 F) X). }
    destruct (is_initialized (protoc sch) m') eqn:Ei; [|reflexivity]. exfalso.
    apply is_initialized_ok in Ei; [|eapply message_of_shaped; eauto].
    destruct Hm as [H1 _]. destruct Hm' as [H1' _].
    destruct (complete_records sch (slots m) H1 R) as [A _].
    destruct (complete_records sch (slots m') H1' R) as [_ B]. specialize (B Ei).
    rewrite !message_records_eq, Hu, app_nil_r in Er. apply (f_equal (@length record)) in Er.
    rewrite !app_length in Er. destruct rest; [congruence|]. simpl in Er. lia.
  - reflexivity.
  - rewrite parse_partial_ok in Ep by auto. discriminate.
  - rewrite parse_partial_ok in Ep by auto. discriminate.
Qed.
