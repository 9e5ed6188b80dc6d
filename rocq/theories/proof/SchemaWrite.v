(** The generated code of every schema: writing, sizes, merging, and their agreement with reading. *)
From Verif.model Require Import Base Wire SchemaCode.
From Verif.spec Require Import WireSpec.
From Verif.proof Require Import WireProof SchemaGen.
Local Open Scope Z_scope.

Lemma write_records_app a b : write_records (a ++ b) = write_records a ++ write_records b.
Proof. unfold write_records. rewrite map_app, concat_app. reflexivity. Qed.

Lemma nth_error_ext {A} : forall (l l' : list A), (forall j, nth_error l j = nth_error l' j) -> l = l'.
Proof.
  induction l as [|a l IH]; intros [|b l'] H; auto.
  - specialize (H 0%nat). discriminate.
  - specialize (H 0%nat). discriminate.
  - pose proof (H 0%nat) as H0. simpl in H0. injection H0 as ->. f_equal. apply IH. intros j. exact (H (S j)).
Qed.

Lemma Forall2_len {A B} (R : A -> B -> Prop) l l' : Forall2 R l l' -> length l = length l'.
Proof. induction 1; simpl; auto. Qed.

Lemma Forall2_cons_inv {A B} (R : A -> B -> Prop) a l l' : Forall2 R (a :: l) l' ->
  exists b k, l' = b :: k /\ R a b /\ Forall2 R l k.
Proof. inversion 1; subst; eauto. Qed.

Lemma slot_ok_shape f s : slot_ok f s -> shape_ok f s.
Proof. unfold slot_ok, shape_ok. destruct (f_label f), s as [[v|]|vs]; auto. Qed.

Lemma message_of_shaped d sch m : message_of d sch m -> shaped sch m.
Proof.
  intros [H _]. unfold shaped. induction H; constructor; auto. apply slot_ok_shape. auto.
Qed.

(** * Writing *)

Definition recs (sch : schema) (ss : list slot) : list record :=
  concat (map (fun fs => map (value_record (fst fs)) (slot_values (snd fs))) (combine sch ss)).

Lemma message_records_eq sch m : message_records sch m = recs sch (slots m) ++ unknown m.
Proof. reflexivity. Qed.

Lemma write_value f v : write_record (value_record f v) =
  write_tag (f_number f) (match kind_of (f_type f) with KFloat => 5 | _ => 0 end) ++ write_prim (kind_of (f_type f)) v.
Proof. unfold value_record. destruct (f_type f); reflexivity. Qed.

Lemma write_stmts_ok m sub : forall pre ss, slots m = pre ++ ss -> Forall2 shape_ok sub ss ->
  write_stmts m (mapi gen_write (length pre) sub) = Ok (write_records (recs sub ss) ++ write_records (unknown m)).
Proof.
  induction sub as [|f t IH]; intros pre ss Hm H; inversion H as [|f' s t' ss' Hs Ht]; subst; cbn [mapi write_stmts].
  - reflexivity.
  - assert (V : vget (slots m) (length pre) = Ok s).
    { apply nth_error_vget. rewrite Hm, nth_error_app2, Nat.sub_diag by lia. reflexivity. }
    assert (W : write_stmt m (gen_write (length pre) f (hd_error t)) =
                Ok (write_records (map (value_record f) (slot_values s)))).
    { unfold gen_write, shape_ok, is_rep in *. destruct (f_label f); destruct s as [[v|]|vs]; try contradiction;
        cbn [write_stmt]; rewrite V; cbn [obind slot_values map]; unfold write_records; cbn [map concat].
      - rewrite app_nil_r, write_value. reflexivity.
      - reflexivity.
      - f_equal. rewrite map_map. f_equal. apply map_ext. intros v. symmetry. apply write_value. }
    rewrite W. cbn [obind].
    replace (S (length pre)) with (length (pre ++ [s])) by (rewrite app_length; simpl; lia).
    rewrite (IH (pre ++ [s]) ss') by (auto; rewrite Hm, <- app_assoc; reflexivity).
    cbn [obind]. unfold recs. cbn [combine map concat fst snd]. rewrite write_records_app, <- app_assoc. reflexivity.
Qed.

Theorem serialize_ok sch m : shaped sch m ->
  serialize (protoc sch) m = Ok (write_records (message_records sch m)).
Proof.
  intros H. unfold serialize, protoc. cbn [c_write].
  pose proof (write_stmts_ok m sch [] (slots m) eq_refl H) as W. cbn [length] in W. rewrite W.
  rewrite <- write_records_app. reflexivity.
Qed.

Lemma fits_value d f v : 1 <= f_number f < 16 -> in_type (f_type f) v -> fits d (value_record f v).
Proof.
  intros Hn Hv. unfold value_record. destruct (f_type f); cbn [in_type] in Hv; constructor; try lia.
  apply Z.mod_pos_bound. lia.
Qed.

Lemma slot_values_ok f s : slot_ok f s -> Forall (in_type (f_type f)) (slot_values s).
Proof. unfold slot_ok. destruct (f_label f), s as [[v|]|vs]; cbn; auto; intros []. Qed.

Lemma recs_fits d sch ss : Forall (fun f => 1 <= f_number f < 16) sch -> Forall2 slot_ok sch ss ->
  Forall (fits d) (recs sch ss).
Proof.
  intros Hn H. unfold recs. induction H as [|f s sch ss Hs H IH]; cbn [combine map concat]; [constructor|].
  apply Forall_cons_iff in Hn as [Hn1 Hn2]. apply Forall_app. split; auto. cbn [fst snd].
  apply Forall_map. eapply Forall_impl; [|apply slot_values_ok; eauto]. intros v Hv. apply fits_value; auto.
Qed.

Lemma records_fit d sch m : wf sch -> message_of d sch m -> Forall (fits d) (message_records sch m).
Proof.
  intros (_ & Hn & _) [H1 H2]. rewrite message_records_eq. apply Forall_app. split.
  - apply recs_fits; auto.
  - eapply Forall_impl; [|exact H2]. intros r [Hr _]. exact Hr.
Qed.

(** * Absorbing the records of a message *)

Fixpoint zip_slots (ss ss' : list slot) : list slot :=
  match ss, ss' with
  | s :: t, s' :: t' => add_values (slot_values s') s :: zip_slots t t'
  | _, _ => []
  end.

Lemma of_varint_in t v : in_type t v -> t <> TFloat ->
  of_varint t (match t with TInt32 => v mod 2 ^ 64 | _ => v end) = v.
Proof.
  destruct t; cbn [in_type of_varint]; intros H Ht; try congruence.
  - apply Z.mod_small. lia.
  - rewrite <- Z.add_mod_idemp_l by lia.
    assert (E : (v mod 2 ^ 64) mod 2 ^ 32 = v mod 2 ^ 32).
    { symmetry. apply Znumtheory.Zmod_div_mod; try lia. exists (2 ^ 32). reflexivity. }
    rewrite E, Z.add_mod_idemp_l by lia. rewrite Z.mod_small by lia. lia.
Qed.

Section Absorb.
  Context (sch : schema) (Hwf : wf sch).

  Lemma absorb_value m i f v : nth_error sch i = Some f -> in_type (f_type f) v ->
    absorb sch m (value_record f v) = Some (put m i v).
  Proof.
    intros Hf Hv. pose proof (find_field_nth sch (proj1 Hwf) 0 i f Hf) as Hff. cbn [Nat.add] in Hff.
    unfold absorb. replace (number (value_record f v)) with (f_number f)
      by (unfold value_record; destruct (f_type f); reflexivity).
    rewrite Hff. unfold value_record.
    destruct (f_type f) eqn:E; auto.
    - rewrite (of_varint_in TUint32) by (auto; discriminate). reflexivity.
    - rewrite (of_varint_in TInt32) by (auto; discriminate). reflexivity.
  Qed.

  Lemma absorb_values i f vs : nth_error sch i = Some f -> Forall (in_type (f_type f)) vs ->
    forall x s y u, length x = i ->
    absorb_all sch (Message (x ++ s :: y) u) (map (value_record f) vs) = Some (Message (x ++ add_values vs s :: y) u).
  Proof.
    intros Hf Hv. induction Hv as [|v vs Hv Hvs IH]; intros x s y u Hx; cbn [map absorb_all]; auto.
    rewrite (absorb_value _ i) by auto. unfold put. cbn [slots unknown]. subst i. rewrite modify_app.
    rewrite IH by auto. reflexivity.
  Qed.

  Lemma absorb_recs sub : forall a, sch = a ++ sub -> forall x ss ss' u, length x = length a ->
    length ss = length sub -> Forall2 slot_ok sub ss' ->
    absorb_all sch (Message (x ++ ss) u) (recs sub ss') = Some (Message (x ++ zip_slots ss ss') u).
  Proof.
    induction sub as [|f t IH]; intros a Ha x ss ss' u Hx Hl H.
    - destruct ss; [|discriminate]. destruct ss'; [reflexivity|inversion H].
    - apply Forall2_cons_inv in H as (s' & ss1 & -> & Hs & Ht). destruct ss as [|s ss]; [discriminate|]. cbn in Hl. injection Hl as Hl.
      unfold recs. cbn [combine map concat fst snd]. rewrite absorb_all_app.
      rewrite (absorb_values (length a) f) with (s := s); auto.
      + change (concat (map (fun fs => map (value_record (fst fs)) (slot_values (snd fs))) (combine t ss1))) with (recs t ss1).
        cbn [zip_slots].
        replace (x ++ add_values (slot_values s') s :: ss) with ((x ++ [add_values (slot_values s') s]) ++ ss)
          by (rewrite <- app_assoc; reflexivity).
        rewrite (IH (a ++ [f])) with (x := x ++ [add_values (slot_values s') s]); auto.
        * rewrite <- app_assoc. reflexivity.
        * rewrite <- app_assoc. exact Ha.
        * rewrite !app_length. simpl. lia.
      + rewrite Ha, nth_error_app2, Nat.sub_diag by lia. reflexivity.
      + apply slot_values_ok. auto.
  Qed.

  Lemma absorb_unknown m r : (forall f, In f sch -> ~ carries f r) -> absorb sch m r = Some (keep m r).
  Proof.
    intros H. unfold absorb. destruct (find_field 0 (number r) sch) as [[i f]|] eqn:E; auto.
    apply find_field_some in E as (_ & E1 & E2). apply nth_error_In in E1. specialize (H f E1).
    unfold carries in H. destruct r; auto; cbn in *.
    - destruct (f_type f) eqn:Et; auto; exfalso; apply H; split; auto; discriminate.
    - unfold is_rep. destruct (f_label f) eqn:El; auto. exfalso. apply H. auto.
    - destruct (f_type f) eqn:Et; auto. exfalso; apply H; auto.
  Qed.

  Lemma absorb_unknowns us : Forall (fun r => forall f, In f sch -> ~ carries f r) us ->
    forall ss u, absorb_all sch (Message ss u) us = Some (Message ss (u ++ us)).
  Proof.
    induction 1 as [|r us Hr Hus IH]; intros ss u; cbn [absorb_all].
    - rewrite app_nil_r. reflexivity.
    - rewrite absorb_unknown by auto. unfold keep. cbn [slots unknown]. rewrite IH, <- app_assoc. reflexivity.
  Qed.

  Lemma absorb_message d x m : shaped sch x -> message_of d sch m ->
    absorb_all sch x (message_records sch m) = Some (Message (zip_slots (slots x) (slots m)) (unknown x ++ unknown m)).
  Proof.
    intros Hx [H1 H2]. rewrite message_records_eq, absorb_all_app. destruct x as [ss u].
    pose proof (absorb_recs sch [] eq_refl [] ss (slots m) u eq_refl) as A. cbn [app] in A.
    rewrite A; auto.
    - rewrite absorb_unknowns; [reflexivity|]. eapply Forall_impl; [|exact H2]. intros r [_ Hr]. exact Hr.
    - unfold shaped in Hx. cbn [slots] in Hx. apply Forall2_len in Hx. auto.
  Qed.

  Lemma add_values_many vs : forall w, add_values vs (Many w) = Many (w ++ vs).
  Proof.
    induction vs as [|v vs IH]; intros w; cbn.
    - rewrite app_nil_r. reflexivity.
    - unfold add_values in IH. rewrite IH, <- app_assoc. reflexivity.
  Qed.

  Lemma zip_empty : forall sub ss, Forall2 shape_ok sub ss -> zip_slots (slots (empty_message sub)) ss = ss.
  Proof.
    intros sub ss H. unfold empty_message. cbn [slots].
    induction H as [|f s sub ss Hs H IH]; cbn [map zip_slots]; auto. rewrite IH. f_equal.
    unfold shape_ok in Hs. destruct (f_label f); destruct s as [[v|]|vs]; try contradiction; auto.
    cbn [slot_values]. rewrite add_values_many. reflexivity.
  Qed.

  Lemma absorb_empty d m : message_of d sch m ->
    absorb_all sch (empty_message sch) (message_records sch m) = Some m.
  Proof.
    intros H. rewrite (absorb_message d) by (auto; apply shaped_empty).
    rewrite zip_empty by (eapply message_of_shaped; eauto). destruct m; reflexivity.
  Qed.

  (** Round trip. *)
  Theorem round_trip d room m : message_of d sch m ->
    parse_partial room d (protoc sch) (write_records (message_records sch m)) = Ok (Some m).
  Proof.
    intros H. rewrite parse_partial_ok by auto. unfold P.
    rewrite (decode_clipped _ d _ _ (decode_written d _ (records_fit d sch m Hwf H))).
    rewrite (absorb_empty d) by auto. reflexivity.
  Qed.

  (** Any records, in any order, packed or not. *)
  Lemma payloads_unpack t vs b : payloads t vs b -> forall n, (length b <= n)%nat -> unpack n (kind_of t) b = Some vs.
  Proof.
    induction 1 as [|v vs b Ht Hv H IH|v p vs b Ht Hv Hp H IH]; intros n Hn.
    - destruct n; reflexivity.
    - subst t. rewrite <- (write_le_ok 4 v) in *. rewrite app_length, write_le_length in Hn.
      destruct n as [|n]; [lia|]. cbn [unpack kind_of read_prim].
      pose proof (read_write_le 4 v b Hv) as E.
      destruct (write_le 4 v ++ b) eqn:El; [apply app_eq_nil in El as [El _]; discriminate|].
      cbn [kind_of read_prim] in *. rewrite E. rewrite IH by lia. reflexivity.
    - destruct (varint_nonempty _ _ Hp) as (a & q & Ep). pose proof (varint_write _ _ Hp ltac:(lia)) as Ew.
      rewrite app_length in Hn. rewrite Ep in Hn. simpl in Hn. destruct n as [|n]; [lia|].
      assert (E : read_prim (kind_of t) (p ++ b) = Some (of_varint t v, b)).
      { subst p. destruct t; try congruence; cbn [kind_of read_prim].
        - rewrite Ew. apply read_write_varint64. exact Hv.
        - rewrite Ew. apply read_write_varint32. exact Hv.
        - rewrite Ew. rewrite read_write_varint32 by lia. rewrite of_varint_signed by lia. reflexivity. }
      rewrite Ep in *. cbn [app unpack] in *. rewrite E. rewrite IH by lia. reflexivity.
  Qed.

  Lemma put_all_app vs : forall x s y u, put_all (Message (x ++ s :: y) u) (length x) vs =
    Message (x ++ add_values vs s :: y) u.
  Proof.
    induction vs as [|v vs IH]; intros x s y u; cbn; auto. unfold put_all in IH. unfold put at 2. cbn [slots unknown].
    rewrite modify_app, IH. reflexivity.
  Qed.

  Lemma absorbs_ok m r m' : absorbs sch m r m' -> absorb sch m r = Some m'.
  Proof.
    intros H. destruct H as [n v m a f b x s y Hs Hm Hl Hn Ht|n v m a f b x s y Hs Hm Hl Hn Ht
      |n bytes vs m a f b x s y Hs Hm Hl Hn Ht Hp|r m Hk].
    1-3: assert (Hf : nth_error sch (length x) = Some f)
           by (rewrite Hs, Hl, nth_error_app2, Nat.sub_diag by lia; reflexivity);
         pose proof (find_field_nth sch (proj1 Hwf) 0 _ f Hf) as Hff; cbn [Nat.add] in Hff;
         unfold absorb; cbn [number]; rewrite <- Hn, Hff.
    - unfold put. rewrite Hm, !modify_app. destruct (f_type f) eqn:Et; [congruence|..]; rewrite ?modify_app; reflexivity.
    - rewrite Ht. unfold put. rewrite Hm, modify_app. reflexivity.
    - unfold is_rep. rewrite Ht. rewrite (payloads_unpack _ _ _ Hp) by lia.
      destruct m as [ss u]. cbn [slots unknown] in *. rewrite Hm, put_all_app. reflexivity.
    - apply absorb_unknown. auto.
  Qed.

  Lemma absorbs_all_ok m rs m' : absorbs_all sch m rs m' -> absorb_all sch m rs = Some m'.
  Proof. induction 1; cbn; auto. erewrite absorbs_ok by eauto. auto. Qed.

  Theorem any_order d room rs l m : records_bytes rs l -> Forall (fits d) rs ->
    absorbs_all sch (empty_message sch) rs m -> parse_partial room d (protoc sch) l = Ok (Some m).
  Proof.
    intros Hl Hf H. rewrite parse_partial_ok by auto. unfold P.
    rewrite (records_bytes_write d rs l Hl Hf), (decode_clipped _ d _ _ (decode_written d rs Hf)).
    rewrite (absorbs_all_ok _ _ _ H). reflexivity.
  Qed.

  (** What is read is a message of the schema. *)
  Lemma modify_ok i g : (forall f s, nth_error sch i = Some f -> slot_ok f s -> slot_ok f (g s)) ->
    forall ss, Forall2 slot_ok sch ss -> Forall2 slot_ok sch (modify i g ss).
  Proof.
    clear Hwf. intros Hg ss H. revert i Hg. induction H as [|f s sub ss Hs H IH]; intros [|i] Hg; cbn [modify]; constructor; auto.
  Qed.

  Lemma in_kind_type t v : in_kind (kind_of t) v <-> in_type t v.
  Proof. destruct t; reflexivity. Qed.

  Lemma put_ok d m i f v : message_of d sch m -> nth_error sch i = Some f -> in_type (f_type f) v ->
    message_of d sch (put m i v).
  Proof.
    intros [H1 H2] Hf Hv. split; auto. unfold put. cbn [slots]. apply modify_ok; auto.
    intros f' s Hf' Hs. assert (f' = f) by congruence. subst f'. unfold slot_ok, add_value in *.
    destruct (f_label f), s as [[w|]|vs]; auto; try contradiction. apply Forall_app. auto.
  Qed.

  Lemma put_all_ok d i f vs : nth_error sch i = Some f -> Forall (in_type (f_type f)) vs ->
    forall m, message_of d sch m -> message_of d sch (put_all m i vs).
  Proof.
    intros Hf. induction 1 as [|v vs Hv Hvs IH]; intros m Hm; cbn; auto. apply IH. eapply put_ok; eauto.
  Qed.

  Lemma unpack_ok k n : forall l vs, Forall is_byte l -> unpack n k l = Some vs -> Forall (in_kind k) vs.
  Proof.
    clear. induction n as [|n IH]; intros [|a l] vs Hl H; cbn [unpack] in H; try (injection H as <-; constructor); try discriminate.
    destruct (read_prim k (a :: l)) as [[v r]|] eqn:E; [|discriminate].
    destruct (unpack n k r) as [ws|] eqn:E2; [|discriminate]. injection H as <-. constructor.
    - eapply read_prim_range; eauto.
    - destruct (read_prim_suffix _ _ _ _ E) as (b & p & Ep). rewrite Ep in Hl. apply Forall_suffix in Hl.
      eapply IH; eauto.
  Qed.

  Lemma keep_ok d m r : message_of d sch m -> fits d r -> (forall f, In f sch -> ~ carries f r) ->
    message_of d sch (keep m r).
  Proof. intros [H1 H2] Hr Hc. split; auto. unfold keep. cbn [unknown]. apply Forall_app. auto. Qed.

  Lemma number_unique f g : In f sch -> In g sch -> f_number f = f_number g -> f = g.
  Proof.
    intros Hf Hg E. apply In_nth_error in Hf as [i Hi]. apply In_nth_error in Hg as [j Hj].
    pose proof (find_field_nth sch (proj1 Hwf) 0 i f Hi) as A.
    pose proof (find_field_nth sch (proj1 Hwf) 0 j g Hj) as B. rewrite E, B in A. congruence.
  Qed.

  Lemma absorb_ok d m r m' : message_of d sch m -> fits d r -> absorb sch m r = Some m' -> message_of d sch m'.
  Proof.
    intros Hm Hr. unfold absorb. destruct (find_field 0 (number r) sch) as [[i f]|] eqn:E.
    - apply find_field_some in E as (_ & E1 & E2). rewrite Nat.sub_0_r in E1.
      pose proof (nth_error_In _ _ E1) as Hin.
      assert (K : ~ carries f r -> message_of d sch (keep m r)).
      { intros Hc. apply keep_ok; auto. intros g Hg Hcg. apply Hc.
        assert (g = f); [|congruence]. apply number_unique; auto. destruct Hcg as [Hcg _]. congruence. }
      destruct r.
      + inversion Hr; subst. destruct (f_type f) eqn:Et; intros H; injection H as <-.
        * apply K. intros [_ Hc]. congruence.
        * eapply put_ok; eauto. rewrite Et. cbn. lia.
        * eapply put_ok; eauto. rewrite Et. cbn [in_type of_varint]. apply Z.mod_pos_bound. lia.
        * eapply put_ok; eauto. rewrite Et. cbn [in_type of_varint].
          pose proof (Z.mod_pos_bound (v + 2 ^ 31) (2 ^ 32) ltac:(lia)). lia.
      + intros H; injection H as <-. apply K. intros [_ []].
      + inversion Hr; subst. destruct (is_rep f) eqn:Erep.
        * destruct (unpack _ _ _) as [vs|] eqn:Eu; [|discriminate]. intros H; injection H as <-.
          eapply put_all_ok; eauto. eapply Forall_impl; [|eapply unpack_ok; eauto].
          intros v. apply in_kind_type.
        * intros H; injection H as <-. apply K. intros [_ Hc]. unfold is_rep in Erep. rewrite Hc in Erep. discriminate.
      + intros H; injection H as <-. apply K. intros [_ []].
      + inversion Hr; subst. destruct (f_type f) eqn:Et; intros H; injection H as <-.
        * eapply put_ok; eauto. rewrite Et. cbn. lia.
        * apply K. intros [_ Hc]. congruence.
        * apply K. intros [_ Hc]. congruence.
        * apply K. intros [_ Hc]. congruence.
    - intros H. injection H as <-. apply keep_ok; auto. intros f Hf [Hc _].
      eapply find_field_none; eauto.
  Qed.

  Lemma empty_ok d : message_of d sch (empty_message sch).
  Proof.
    clear Hwf. split; [|constructor]. unfold empty_message. cbn [slots].
    induction sch as [|f t IH]; cbn [map]; constructor; auto.
    unfold slot_ok. destruct (f_label f); auto.
  Qed.

  Lemma absorb_all_ok d rs : forall m m', message_of d sch m -> Forall (fits d) rs ->
    absorb_all sch m rs = Some m' -> message_of d sch m'.
  Proof.
    induction rs as [|r rs IH]; intros m m' Hm Hr H; cbn [absorb_all] in H.
    - congruence.
    - apply Forall_cons_iff in Hr as [Hr1 Hr2]. destruct (absorb sch m r) as [m1|] eqn:E; [|discriminate].
      apply (IH m1 m'); auto. exact (absorb_ok d m r m1 Hm Hr1 E).
  Qed.

  (** A packed field that was cut at the end of the message. *)
  Definition held (d : nat) (r : record) : Prop :=
    fits d r \/ match r with RLen n b => packs sch n = true /\ Forall is_byte b | _ => False end.

  Lemma absorb_held d m r m' : message_of d sch m -> held d r -> absorb sch m r = Some m' -> message_of d sch m'.
  Proof.
    intros Hm [Hr|Hr]; [apply absorb_ok; auto|]. destruct r; try contradiction. destruct Hr as [Hp Hb].
    unfold packs in Hp. unfold absorb. cbn [number].
    destruct (find_field 0 n sch) as [[i f]|] eqn:E; [|discriminate]. rewrite Hp.
    apply find_field_some in E as (_ & E1 & _). rewrite Nat.sub_0_r in E1.
    destruct (unpack _ _ _) as [vs|] eqn:Eu; [|discriminate]. intros H; injection H as <-.
    eapply put_all_ok; eauto. eapply Forall_impl; [|eapply unpack_ok; eauto]. intros v. apply in_kind_type.
  Qed.

  Lemma absorb_all_held d rs : forall m m', message_of d sch m -> Forall (held d) rs ->
    absorb_all sch m rs = Some m' -> message_of d sch m'.
  Proof.
    induction rs as [|r rs IH]; intros m m' Hm Hr H; cbn [absorb_all] in H.
    - congruence.
    - apply Forall_cons_iff in Hr as [Hr1 Hr2]. destruct (absorb sch m r) as [m1|] eqn:E; [|discriminate].
      apply (IH m1 m'); auto. exact (absorb_held d m r m1 Hm Hr1 E).
  Qed.

  Lemma P_ok d m l m' : message_of d sch m -> Forall is_byte l -> P sch d m l = Some m' -> message_of d sch m'.
  Proof.
    intros Hm Hl. unfold P. destruct (clipped (packs sch) d l) as [rs|] eqn:E; [|discriminate]. intros H.
    eapply absorb_all_held; [exact Hm| |exact H]. exact (clipped_fits (packs sch) d l rs Hl E).
  Qed.

  (** The records that are written are not cut. *)
  Lemma records_whole d m : message_of d sch m ->
    Forall (fun r => match r with RLen n _ => packs sch n = false | _ => True end) (message_records sch m).
  Proof.
    clear Hwf. intros [_ H]. rewrite message_records_eq. apply Forall_app. split.
    - apply Forall_forall. intros r Hr. unfold recs in Hr. apply in_concat in Hr as (x & Hx & Hr).
      apply in_map_iff in Hx as ([f s] & <- & _). apply in_map_iff in Hr as (v & <- & _).
      unfold value_record. destruct (f_type (fst (f, s))); exact I.
    - eapply Forall_impl; [|exact H]. intros r [_ Hc]. destruct r; auto. unfold packs.
      destruct (find_field 0 n sch) as [[i f]|] eqn:E; auto.
      apply find_field_some in E as (_ & E1 & E2). rewrite Nat.sub_0_r in E1.
      destruct (is_rep f) eqn:Er; auto. destruct (Hc f (nth_error_In _ _ E1)). split; [cbn; congruence|].
      unfold is_rep in Er. destruct (f_label f); [discriminate|reflexivity].
  Qed.

  Theorem parsed_ok d room l m : Forall is_byte l -> parse_partial room d (protoc sch) l = Ok (Some m) ->
    message_of d sch m.
  Proof.
    intros Hl. rewrite parse_partial_ok by auto. intros H. eapply P_ok; [apply empty_ok|exact Hl|].
    congruence.
  Qed.

  (** One message after another. *)
  Theorem concatenation d room m x : message_of d sch m -> message_of d sch x ->
    parse_partial room d (protoc sch) (write_records (message_records sch m) ++ write_records (message_records sch x))
    = Ok (absorb_all sch m (message_records sch x)).
  Proof.
    intros Hm Hx. rewrite parse_partial_ok by auto. unfold P.
    rewrite <- write_records_app.
    rewrite (decode_clipped _ d _ (message_records sch m ++ message_records sch x)).
    - rewrite absorb_all_app, (absorb_empty d) by auto. reflexivity.
    - apply decode_written. apply Forall_app. split; apply records_fit; auto.
  Qed.

  (** * Cuts *)
  Lemma slot_cut f s p q : slot_ok f s -> map (value_record f) (slot_values s) = p ++ q ->
    exists s', slot_ok f s' /\ map (value_record f) (slot_values s') = p.
  Proof.
    clear Hwf. intros Hs H. unfold slot_ok in Hs. destruct (f_label f) eqn:El; destruct s as [[v|]|vs]; try contradiction; cbn in H.
    - destruct p as [|a p].
      + exists (One None). unfold slot_ok. rewrite El. auto.
      + destruct p; [|destruct q; discriminate]. exists (One (Some v)). unfold slot_ok. rewrite El. split; auto.
        cbn in *. congruence.
    - symmetry in H. apply app_eq_nil in H as [-> ->]. exists (One None). unfold slot_ok. rewrite El. auto.
    - symmetry in H. destruct (map_eq_app (value_record f) vs p q (eq_sym H)) as (v1 & v2 & -> & <- & <-).
      exists (Many v1). unfold slot_ok. rewrite El. apply Forall_app in Hs. split; [tauto|reflexivity].
  Qed.

  Lemma recs_empty sub : recs sub (slots (empty_message sub)) = [].
  Proof.
    clear. unfold recs, empty_message. cbn [slots]. induction sub as [|f t IH]; cbn [map combine concat fst snd]; auto.
    rewrite IH. destruct (f_label f); reflexivity.
  Qed.

  Lemma empty_slots_ok sub : Forall2 slot_ok sub (slots (empty_message sub)).
  Proof.
    clear. unfold empty_message. cbn [slots].
    induction sub as [|f t IH]; cbn [map]; constructor; auto. unfold slot_ok. destruct (f_label f); auto.
  Qed.

  Lemma recs_cut sub ss : Forall2 slot_ok sub ss -> forall p q, recs sub ss = p ++ q ->
    exists ss', Forall2 slot_ok sub ss' /\ recs sub ss' = p.
  Proof.
    clear Hwf. induction 1 as [|f s sub ss Hs H IH]; intros p q E.
    - cbn in E. symmetry in E. apply app_eq_nil in E as [-> ->]. exists []. split; [constructor|reflexivity].
    - unfold recs in E. cbn [combine map concat fst snd] in E.
      destruct (app_eq_app _ _ _ _ E) as (l & [[E1 E2]|[E1 E2]]).
      + destruct (slot_cut f s p l Hs E1) as (s' & Hs' & E3).
        exists (s' :: slots (empty_message sub)). split; [constructor; auto; apply empty_slots_ok|].
        unfold recs. cbn [combine map concat fst snd]. fold (recs sub (slots (empty_message sub))).
        rewrite recs_empty, app_nil_r. exact E3.
      + destruct (IH l q E2) as (ss' & Hss & E3). exists (s :: ss'). split; [constructor; auto|].
        unfold recs. cbn [combine map concat fst snd]. fold (recs sub ss'). rewrite E3. congruence.
  Qed.

  Lemma message_cut d m p q : message_of d sch m -> message_records sch m = p ++ q ->
    exists m', message_of d sch m' /\ message_records sch m' = p.
  Proof.
    clear Hwf. intros [H1 H2] E. rewrite message_records_eq in E.
    destruct (app_eq_app _ _ _ _ E) as (l & [[E1 E2]|[E1 E2]]).
    - destruct (recs_cut _ _ H1 _ _ E1) as (ss & Hss & E3). exists (Message ss []).
      split; [split; [exact Hss|constructor]|]. rewrite message_records_eq. cbn [slots unknown].
      rewrite app_nil_r. exact E3.
    - exists (Message (slots m) l). split; [split; [exact H1|]|].
      + cbn [unknown]. rewrite E2 in H2. apply Forall_app in H2. tauto.
      + rewrite message_records_eq. cbn [slots unknown]. congruence.
  Qed.

  Theorem cut d room m a b m' : message_of d sch m -> write_records (message_records sch m) = a ++ b ->
    parse_partial room d (protoc sch) a = Ok (Some m') ->
    exists rest, message_records sch m = message_records sch m' ++ rest /\ (b <> [] -> rest <> []).
  Proof.
    intros Hm Ew H. rewrite parse_partial_ok in H by auto. unfold P in H.
    pose proof (decode_written d _ (records_fit d sch m Hwf Hm)) as Dw. rewrite Ew in Dw.
    rewrite (clipped_prefix _ d b a _ Dw (records_whole d m Hm)) in H. clear Dw.
    destruct (decode d a) as [rs|] eqn:E; [|discriminate].
    assert (H' : absorb_all sch (empty_message sch) rs = Some m') by congruence.
    pose proof (decode_app d b a rs E) as D. rewrite <- Ew in D.
    rewrite decode_written in D by (apply records_fit; auto).
    destruct (decode d b) as [vs|] eqn:Eb; [|discriminate]. injection D as D.
    destruct (message_cut d m rs vs Hm D) as (m1 & Hm1 & E1).
    rewrite <- E1 in H'. rewrite (absorb_empty d) in H' by auto. injection H' as <-.
    exists vs. split; [congruence|]. intros Hb Hv. subst vs. exact (decode_nonempty d b Hb Eb).
  Qed.
End Absorb.
