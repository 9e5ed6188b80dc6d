(** The messages of schema.proto: their code is what the generator's scheme gives for their schemas. *)
From Coq Require Import ZArith String List.
Import ListNotations.
From Verif.model Require Import Base Wire SchemaCode Schema.
From Verif.spec Require Import WireSpec.
From Verif.proof Require Import WireProof SchemaGen SchemaWrite SchemaMerge.
Local Open Scope Z_scope.

Lemma names_agree : map fst schema_pb = map fst schema_proto.
Proof. reflexivity. Qed.

Lemma codes_agree : Forall2 (fun a b => snd a = protoc (snd b)) schema_pb schema_proto.
Proof. repeat (constructor; [reflexivity|]). constructor. Qed.

Fixpoint distinct (l : list string) : bool :=
  match l with [] => true | a :: t => negb (existsb (String.eqb a) t) && distinct t end.

Lemma distinct_ok l : distinct l = true -> NoDup l.
Proof.
  induction l as [|a t IH]; cbn [distinct]; intros H; constructor.
  - intros I. apply andb_prop in H as [H _]. apply Bool.negb_true_iff in H.
    assert (existsb (String.eqb a) t = true); [|congruence]. apply existsb_exists. exists a. split; auto. apply String.eqb_refl.
  - apply andb_prop in H as [_ H]. auto.
Qed.

Lemma names_distinct : NoDup (map fst schema_proto).
Proof. apply distinct_ok. vm_compute. reflexivity. Qed.

Lemma schemas_wf : Forall (fun b => wf (snd b)) schema_proto.
Proof.
  repeat (constructor; [split; [|split]; cbn [snd map f_number length required repeated];
    [repeat (constructor; [cbn [In]; lia|]); constructor
    |repeat (constructor; [cbn [f_number required repeated]; lia|]); constructor|lia]|]).
  constructor.
Qed.

Lemma in_pair {A B} (f : string * B -> A) (l : list (string * A)) (l' : list (string * B)) :
  Forall2 (fun a b => snd a = f b) l l' -> map fst l = map fst l' -> NoDup (map fst l') ->
  forall n a b, In (n, a) l -> In (n, b) l' -> a = f (n, b).
Proof.
  induction 1 as [|[n0 a0] [n1 b1] l l' E H IH]; intros En Nd n a b Ia Ib; [contradiction|].
  cbn [map fst snd] in *. injection En as -> En. apply NoDup_cons_iff in Nd as [N1 N2].
  destruct Ia as [Ia|Ia], Ib as [Ib|Ib].
  - congruence.
  - assert (n1 = n) by congruence. subst. destruct N1. apply (in_map fst) in Ib. exact Ib.
  - assert (n1 = n) by congruence. subst. destruct N1. apply (in_map fst) in Ia. rewrite En in Ia. exact Ia.
  - eauto.
Qed.

Lemma code_of n c sch : In (n, c) schema_pb -> In (n, sch) schema_proto -> c = protoc sch /\ wf sch.
Proof.
  intros Hc Hs. split.
  - exact (in_pair (fun b => protoc (snd b)) _ _ codes_agree names_agree names_distinct n c sch Hc Hs).
  - pose proof schemas_wf as W. rewrite Forall_forall in W. exact (W _ Hs).
Qed.

Lemma limit_max : 2 ^ 31 - 1 = i32_max.
Proof. reflexivity. Qed.

Section One.
  Context (name : string) (c : code) (sch : schema)
          (Hc : In (name, c) schema_pb) (Hs : In (name, sch) schema_proto).

  Lemma written d m : message_of d sch m ->
    exists l, serialize c m = Ok l /\ records_bytes (message_records sch m) l
              /\ forall room, parse_partial room d c l = Ok (Some m).
  Proof.
    destruct (code_of _ _ _ Hc Hs) as [-> W]. intros Hm. exists (write_records (message_records sch m)).
    split; [apply serialize_ok; eapply message_of_shaped; eauto|]. split.
    - eapply write_records_ok. apply records_fit; eauto.
    - intros room. apply round_trip; auto.
  Qed.

  Lemma parse_complete room d l m : parse_partial room d c l = Ok (Some m) -> shaped sch m ->
    (complete sch m -> parse room d c l = Ok (Some m)) /\ (~ complete sch m -> parse room d c l = Ok None).
  Proof.
    destruct (code_of _ _ _ Hc Hs) as [-> W]. intros H Hm. unfold parse. rewrite H. cbn [obind].
    pose proof (is_initialized_ok sch m Hm) as I. destruct (is_initialized (protoc sch) m).
    - split; auto. intros N. destruct N. apply I. auto.
    - split; auto. intros C. apply I in C. discriminate.
  Qed.

  Lemma round_trip_full d m : message_of d sch m -> complete sch m ->
    exists l, serialize c m = Ok l /\ records_bytes (message_records sch m) l
      /\ (Z.of_nat (length l) < 2 ^ 31 -> byte_size c m = Ok (Z.of_nat (length l)) /\ serialize_to_string c m = Ok l)
      /\ forall room, parse room d c l = Ok (Some m).
  Proof.
    intros Hm Hco. destruct (written d m Hm) as (l & A & B & C). exists l. split; auto. split; auto. split.
    - destruct (code_of _ _ _ Hc Hs) as [-> W]. rewrite serialize_ok in A by (eapply message_of_shaped; eauto).
      injection A as <-. intros L. split; [eapply byte_size_ok|eapply serialize_to_string_ok]; eauto; unfold i32_max; lia.
    - intros room. apply (parse_complete room d l m); auto. eapply message_of_shaped; eauto.
  Qed.

  Lemma any_order_full d rs l m : records_bytes rs l -> Forall (fits d) rs ->
    absorbs_all sch (empty_message sch) rs m ->
    forall room, parse_partial room d c l = Ok (Some m)
      /\ (complete sch m -> parse room d c l = Ok (Some m)) /\ (~ complete sch m -> parse room d c l = Ok None).
  Proof.
    intros Hl Hf Ha room.
    assert (E : parse_partial room d c l = Ok (Some m)).
    { destruct (code_of _ _ _ Hc Hs) as [-> W]. eapply any_order; eauto. }
    split; auto. apply parse_complete; auto.
    assert (S : message_of d sch m); [|eapply message_of_shaped; eauto].
    destruct (code_of _ _ _ Hc Hs) as [_ W].
    eapply (absorb_all_ok sch W d rs); [apply empty_ok|auto|apply absorbs_all_ok; auto].
  Qed.

  Lemma parse_total room room' d l : exists r, parse room d c l = Ok r /\ parse room' d c l = Ok r.
  Proof.
    destruct (code_of _ _ _ Hc Hs) as [-> W]. unfold parse. rewrite !parse_partial_ok by auto. cbn [obind]. eauto.
  Qed.

  Lemma parse_sound room d l m : Forall is_byte l -> parse room d c l = Ok (Some m) ->
    message_of d sch m /\ complete sch m.
  Proof.
    destruct (code_of _ _ _ Hc Hs) as [-> W]. intros Hl H. unfold parse in H.
    destruct (parse_partial room d (protoc sch) l) as [[m'|]| |] eqn:E; try discriminate.
    cbn [obind] in H. destruct (is_initialized (protoc sch) m') eqn:I; [|discriminate].
    assert (m' = m) by congruence. subst m'. pose proof (parsed_ok sch W d room l m Hl E) as Hm. split; auto.
    apply is_initialized_ok; auto. eapply message_of_shaped; eauto.
  Qed.

  Lemma equal d x y lx ly : message_of d sch x -> message_of d sch y ->
    records_bytes (message_records sch x) lx -> records_bytes (message_records sch y) ly ->
    Z.of_nat (length lx) < 2 ^ 31 -> Z.of_nat (length ly) < 2 ^ 31 ->
    exists b, message_eq c x y = Ok b /\ (b = true <-> x = y).
  Proof.
    destruct (code_of _ _ _ Hc Hs) as [-> W]. intros Hx Hy Bx By Lx Ly.
    rewrite (records_bytes_write d _ _ Bx) in Lx by (apply records_fit; auto).
    rewrite (records_bytes_write d _ _ By) in Ly by (apply records_fit; auto).
    eapply message_eq_ok; eauto; unfold i32_max; lia.
  Qed.

  Lemma merge d x m : message_of d sch x -> message_of d sch m ->
    exists m', merge_from c x m = Ok m' /\ unknown m' = unknown m ++ unknown x
      /\ (forall j, match nth_error (slots m) j, nth_error (slots x) j, nth_error (slots m') j with
                    | Some (One a), Some (One b), Some (One r) => r = match b with Some _ => b | None => a end
                    | Some (Many a), Some (Many b), Some (Many r) => r = a ++ b
                    | None, None, None => True
                    | _, _, _ => False
                    end)
      /\ forall lm lx room, serialize c m = Ok lm -> serialize c x = Ok lx ->
           parse_partial room d c (lm ++ lx) = Ok (Some m').
  Proof.
    destruct (code_of _ _ _ Hc Hs) as [-> W]. intros Hx Hm.
    pose proof (message_of_shaped _ _ _ Hx) as Sx. pose proof (message_of_shaped _ _ _ Hm) as Sm.
    exists (merged x m). split; [apply merge_from_ok; auto|]. split; [reflexivity|]. split.
    - intros j. unfold merged. cbn [slots].
      pose proof (Forall2_len _ _ _ Sx) as Lx. pose proof (Forall2_len _ _ _ Sm) as Lm.
      rewrite zip_nth by congruence. destruct (nth_error sch j) as [f|] eqn:Ef.
      + destruct (Forall2_nth _ _ _ _ _ Sx Ef) as (s & Es & Hsx). destruct (Forall2_nth _ _ _ _ _ Sm Ef) as (s' & Es' & Hsm).
        rewrite Es, Es'. unfold shape_ok in *. destruct (f_label f).
        * destruct s' as [a|]; [|contradiction]. destruct s as [[v|]|]; [| |contradiction]; reflexivity.
        * destruct s' as [|a]; [contradiction|]. destruct s as [|b]; [contradiction|].
          cbn [slot_values]. rewrite add_values_many. reflexivity.
      + apply nth_error_None in Ef. rewrite !(proj2 (nth_error_None _ _)) by lia. exact I.
    - intros lm lx room Em Ex. rewrite serialize_ok in Em, Ex by auto. injection Em as <-. injection Ex as <-.
      rewrite (concatenation sch W d room m x) by auto.
      rewrite (absorb_merged d) by auto. reflexivity.
  Qed.

  Lemma copy d x m : message_of d sch x -> message_of d sch m ->
    clear c m = empty_message sch /\ copy_from c x m = Ok x.
  Proof.
    destruct (code_of _ _ _ Hc Hs) as [-> W]. intros Hx Hm.
    split; [apply clear_ok|apply copy_from_ok; auto]; eapply message_of_shaped; eauto.
  Qed.

  Lemma cut_short d m l a b : Forall (fun f => f_label f = Required) sch -> message_of d sch m -> unknown m = [] ->
    serialize c m = Ok l -> l = a ++ b -> b <> [] -> forall room, parse room d c a = Ok None.
  Proof.
    destruct (code_of _ _ _ Hc Hs) as [-> W]. intros R Hm Hu Es El Hb room.
    rewrite serialize_ok in Es by (eapply message_of_shaped; eauto). injection Es as <-.
    eapply truncated; eauto.
  Qed.

  Lemma cut_any d m l a b : message_of d sch m -> serialize c m = Ok l -> l = a ++ b ->
    forall room m', parse_partial room d c a = Ok (Some m') ->
    exists rest, message_records sch m = message_records sch m' ++ rest /\ (b <> [] -> rest <> []).
  Proof.
    destruct (code_of _ _ _ Hc Hs) as [-> W]. intros Hm Es El room m' Ep.
    rewrite serialize_ok in Es by (eapply message_of_shaped; eauto). injection Es as <-.
    eapply cut; eauto.
  Qed.

  Lemma initialized d m : message_of d sch m -> (is_initialized c m = true <-> complete sch m).
  Proof.
    destruct (code_of _ _ _ Hc Hs) as [-> W]. intros Hm. apply is_initialized_ok. eapply message_of_shaped; eauto.
  Qed.
End One.
