(** C94: the messages of schema.proto keep what is put into them (Clustering, which
    holds other messages, has its own file, ClusteringMessageProps.v).
    [schema_proto] (spec) is the schema file, [schema_pb] (model) the generated code; both list the same names.
    [room] says how much spare room each RepeatedField has while reading, [d] is the recursion limit: every
    theorem is for all of them. *)
From Coq Require Import ZArith Lia String List.
Import ListNotations.
From Verif.model Require Import Base Wire SchemaCode Schema.
From Verif.spec Require Import WireSpec.
From Verif.proof Require Import WireProof SchemaProof.
Local Open Scope Z_scope.

(** The two lists name the same messages, in the same order. *)
Theorem C94_names : map fst schema_pb = map fst schema_proto.
Proof. exact names_agree. Qed.
Print Assumptions C94_names.

(** A message with its required fields set is written as the wire format prescribes, its size is computed
    exactly (below 2 GB), and the bytes read back to the same message, unknown fields included. *)
Theorem C94_round_trip : forall name c sch d m,
  In (name, c) schema_pb -> In (name, sch) schema_proto -> message_of d sch m -> complete sch m ->
  exists l, serialize c m = Ok l /\ records_bytes (message_records sch m) l
    /\ (Z.of_nat (length l) < 2 ^ 31 -> byte_size c m = Ok (Z.of_nat (length l)) /\ serialize_to_string c m = Ok l)
    /\ forall room, parse room d c l = Ok (Some m).
Proof. intros name c sch d m Hc Hs. exact (round_trip_full name c sch Hc Hs d m). Qed.
Print Assumptions C94_round_trip.

(** Without the required fields the bytes still hold everything that was set (ParsePartialFromString). *)
Theorem C94_round_trip_incomplete : forall name c sch d m,
  In (name, c) schema_pb -> In (name, sch) schema_proto -> message_of d sch m ->
  exists l, serialize c m = Ok l /\ records_bytes (message_records sch m) l
            /\ forall room, parse_partial room d c l = Ok (Some m).
Proof. intros name c sch d m Hc Hs. exact (written name c sch Hc Hs d m). Qed.
Print Assumptions C94_round_trip_incomplete.

(** Bytes from any other conforming writer - fields in any order, repeated values packed or not or mixed with
    other fields, singular fields given twice, unknown fields - give the message the format assigns to them,
    accepted exactly when its required fields are all there. *)
Theorem C94_any_writer : forall name c sch d rs l m,
  In (name, c) schema_pb -> In (name, sch) schema_proto ->
  records_bytes rs l -> Forall (fits d) rs -> absorbs_all sch (empty_message sch) rs m ->
  forall room, parse_partial room d c l = Ok (Some m)
    /\ (complete sch m -> parse room d c l = Ok (Some m)) /\ (~ complete sch m -> parse room d c l = Ok None).
Proof. intros name c sch d rs l m Hc Hs. exact (any_order_full name c sch Hc Hs d rs l m). Qed.
Print Assumptions C94_any_writer.

(** Reading ends on every string of bytes, with nothing undefined and the same answer however much room the
    arrays have. *)
Theorem C94_any_bytes : forall name c sch room room' d l,
  In (name, c) schema_pb -> In (name, sch) schema_proto ->
  exists r, parse room d c l = Ok r /\ parse room' d c l = Ok r.
Proof. intros name c sch room room' d l Hc Hs. exact (parse_total name c sch Hc Hs room room' d l). Qed.
Print Assumptions C94_any_bytes.

(** What is accepted is a message of the schema with its required fields set, every value in the range of its
    type; so by C94_round_trip it can be written and read again. *)
Theorem C94_accepted : forall name c sch room d l m,
  In (name, c) schema_pb -> In (name, sch) schema_proto -> Forall (fun x => 0 <= x < 256) l ->
  parse room d c l = Ok (Some m) -> message_of d sch m /\ complete sch m.
Proof. intros name c sch room d l m Hc Hs. exact (parse_sound name c sch Hc Hs room d l m). Qed.
Print Assumptions C94_accepted.

(** operator== holds exactly between equal messages. *)
Theorem C94_equal : forall name c sch d x y lx ly,
  In (name, c) schema_pb -> In (name, sch) schema_proto -> message_of d sch x -> message_of d sch y ->
  records_bytes (message_records sch x) lx -> records_bytes (message_records sch y) ly ->
  Z.of_nat (length lx) < 2 ^ 31 -> Z.of_nat (length ly) < 2 ^ 31 ->
  exists b, message_eq c x y = Ok b /\ (b = true <-> x = y).
Proof. intros name c sch d x y lx ly Hc Hs. exact (equal name c sch Hc Hs d x y lx ly). Qed.
Print Assumptions C94_equal.

(** MergeFrom: a singular field of the argument replaces, repeated fields and unknown fields are appended; the
    same as reading the bytes of the one after those of the other. *)
Theorem C94_merge : forall name c sch d x m,
  In (name, c) schema_pb -> In (name, sch) schema_proto -> message_of d sch x -> message_of d sch m ->
  exists m', merge_from c x m = Ok m' /\ unknown m' = unknown m ++ unknown x
    /\ (forall j, match nth_error (slots m) j, nth_error (slots x) j, nth_error (slots m') j with
                  | Some (One a), Some (One b), Some (One r) => r = match b with Some _ => b | None => a end
                  | Some (Many a), Some (Many b), Some (Many r) => r = a ++ b
                  | None, None, None => True
                  | _, _, _ => False
                  end)
    /\ forall lm lx room, serialize c m = Ok lm -> serialize c x = Ok lx ->
         parse_partial room d c (lm ++ lx) = Ok (Some m').
Proof. intros name c sch d x m Hc Hs. exact (merge name c sch Hc Hs d x m). Qed.
Print Assumptions C94_merge.

(** Clear empties, CopyFrom copies exactly, whatever the target held. *)
Theorem C94_copy : forall name c sch d x m,
  In (name, c) schema_pb -> In (name, sch) schema_proto -> message_of d sch x -> message_of d sch m ->
  clear c m = empty_message sch /\ copy_from c x m = Ok x.
Proof. intros name c sch d x m Hc Hs. exact (copy name c sch Hc Hs d x m). Qed.
Print Assumptions C94_copy.

(** IsInitialized says whether the required fields are set. *)
Theorem C94_initialized : forall name c sch d m,
  In (name, c) schema_pb -> In (name, sch) schema_proto -> message_of d sch m ->
  (is_initialized c m = true <-> complete sch m).
Proof. intros name c sch d m Hc Hs. exact (initialized name c sch Hc Hs d m). Qed.
Print Assumptions C94_initialized.

(** A message with required fields only, cut short anywhere, is refused. *)
Theorem C94_cut_short : forall name c sch d m l a b,
  In (name, c) schema_pb -> In (name, sch) schema_proto -> Forall (fun f => f_label f = Required) sch ->
  message_of d sch m -> unknown m = [] -> serialize c m = Ok l -> l = a ++ b -> b <> [] ->
  forall room, parse room d c a = Ok None.
Proof. intros name c sch d m l a b Hc Hs. exact (cut_short name c sch Hc Hs d m l a b). Qed.
Print Assumptions C94_cut_short.

(** With repeated fields a cut may go unseen, but then what is read is a beginning of what was written: no value
    is changed or made up, and something is lost. *)
Theorem C94_cut : forall name c sch d m l a b,
  In (name, c) schema_pb -> In (name, sch) schema_proto ->
  message_of d sch m -> serialize c m = Ok l -> l = a ++ b ->
  forall room m', parse_partial room d c a = Ok (Some m') ->
  exists rest, message_records sch m = message_records sch m' ++ rest /\ (b <> [] -> rest <> []).
Proof. intros name c sch d m l a b Hc Hs. exact (cut_any name c sch Hc Hs d m l a b). Qed.
Print Assumptions C94_cut.

(** DirichletDiscrete.Group with counts 1, 2, 300 *)
Definition dd_group : message := Message [Many [1; 2; 300]] [].

(** That every cut is refused is false of messages with repeated fields: the counts 1, 2, 300, cut after four
    bytes, read as the counts 1, 2. *)
Theorem C94_cut_refused_refuted : exists name c sch m l a b m',
  In (name, c) schema_pb /\ In (name, sch) schema_proto /\ message_of 0 sch m /\ complete sch m /\ unknown m = [] /\
  serialize c m = Ok l /\ l = a ++ b /\ b <> [] /\ m' <> m /\
  forall room, parse room 0 c a = Ok (Some m').
Proof.
  exists "DirichletDiscrete.Group"%string, DirichletDiscrete_Group_code, [repeated TUint64 1], dd_group,
    [8; 1; 8; 2; 8; 172; 2], [8; 1; 8; 2], [8; 172; 2], (Message [Many [1; 2]] []).
  split; [cbn; tauto|]. split; [cbn; tauto|].
  split; [split; [repeat constructor; cbn; lia|constructor]|].
  split; [repeat constructor; discriminate|]. split; [reflexivity|]. split; [vm_compute; reflexivity|].
  split; [reflexivity|]. split; [discriminate|]. split; [discriminate|].
  intros room.
  assert (M : message_of 0 [repeated TUint64 1] (Message [Many [1; 2]] []))
    by (split; [repeat constructor; cbn; lia|constructor]).
  destruct (C94_round_trip "DirichletDiscrete.Group" DirichletDiscrete_Group_code [repeated TUint64 1] 0 _
              ltac:(cbn; tauto) ltac:(cbn; tauto) M ltac:(repeat constructor; discriminate)) as (l & A & _ & _ & B).
  vm_compute in A. injection A as <-. apply B.
Qed.
Print Assumptions C94_cut_refused_refuted.

(** That only the output of some writer is accepted is false as well: a packed field that announces five bytes
    where the message ends after two is read as if it had announced two. *)
Theorem C94_only_written_refuted : exists name c sch l m,
  In (name, c) schema_pb /\ In (name, sch) schema_proto /\ (forall rs, ~ records_bytes rs l)
  /\ complete sch m /\ (forall room, parse room 0 c l = Ok (Some m)).
Proof.
  exists "DirichletDiscrete.Group"%string, DirichletDiscrete_Group_code, [repeated TUint64 1],
    [10; 5; 1; 2], (Message [Many [1; 2]] []).
  split; [cbn; tauto|]. split; [cbn; tauto|]. split; [|split].
  - intros rs H. inversion H as [|r rs' a b Ha Hb Er El]; subst.
    assert (T : forall n w t y, tag_bytes n w t -> 0 <= w < 8 -> t ++ y = [10; 5; 1; 2] -> w = 2 /\ y = [5; 1; 2]).
    { intros n w t y Ht Hw E. unfold tag_bytes in Ht. inversion Ht as [k Hk E1 E2|k p Hk Hp E1 E2]; subst t; cbn [app] in E.
      - assert (8 * n + w = 10) by congruence. split; [lia|congruence].
      - pose proof (Z.mod_pos_bound (8 * n + w) 128 ltac:(lia)).
        assert (128 + (8 * n + w) mod 128 = 10) by congruence. lia. }
    destruct Ha as [n v t p Ht Hp|n v t Ht|n c t p Ht Hp|n rs0 t c e Ht Hr He|n v t Ht]; rewrite <- ?app_assoc in El;
      destruct (T _ _ _ _ Ht ltac:(lia) El) as [W Y]; try lia.
    inversion Hp as [k Hk E1 E2|k q Hk Hq E1 E2]; subst p; cbn [app] in Y.
    + assert (Z.of_nat (length c) = 5) by congruence. assert (c ++ b = [1; 2]) as L by congruence.
      apply (f_equal (@length Z)) in L. rewrite app_length in L. cbn [length] in L. lia.
    + pose proof (Z.mod_pos_bound (Z.of_nat (length c)) 128 ltac:(lia)).
      assert (128 + Z.of_nat (length c) mod 128 = 5) by congruence. lia.
  - repeat constructor; discriminate.
  - intros room.
    destruct (C94_any_bytes "DirichletDiscrete.Group" DirichletDiscrete_Group_code [repeated TUint64 1] room
                (fun _ => 0%nat) 0 [10; 5; 1; 2] ltac:(cbn; tauto) ltac:(cbn; tauto)) as (r & A & B).
    rewrite A, <- B. vm_compute. reflexivity.
Qed.
Print Assumptions C94_only_written_refuted.

(** A concrete message: NormalInverseWishart.Group with a negative count, two floats, and an unknown group. *)
Definition niw_group : message :=
  Message [One (Some (-3)); Many [1065353216; 1073741824]; Many []] [RGroup 77 [RVarint 1 5; RFixed64 2 9]].

Example C94_niw_message : exists sch, In ("NormalInverseWishart.Group"%string, sch) schema_proto
  /\ message_of 1 sch niw_group /\ complete sch niw_group.
Proof.
  exists [required TInt32 1; repeated TFloat 2; repeated TFloat 3].
  split; [cbn; tauto|]. split; [split|].
  - repeat constructor; cbn; lia.
  - constructor; [|constructor]. split.
    + constructor; [lia|]. repeat constructor; lia.
    + intros f [<-|[<-|[<-|[]]]] [H _]; cbn in H; discriminate.
  - repeat constructor; discriminate.
Qed.

Example C94_niw_bytes :
  serialize_to_string NormalInverseWishart_Group_code niw_group
  = Ok ([8; 253; 255; 255; 255; 255; 255; 255; 255; 255; 1] ++ [21; 0; 0; 128; 63] ++ [21; 0; 0; 0; 64]
        ++ [235; 4; 8; 5; 17; 9; 0; 0; 0; 0; 0; 0; 0; 236; 4])
  /\ parse (fun _ => 0%nat) 1 NormalInverseWishart_Group_code
       ([8; 253; 255; 255; 255; 255; 255; 255; 255; 255; 1] ++ [21; 0; 0; 128; 63] ++ [21; 0; 0; 0; 64]
        ++ [235; 4; 8; 5; 17; 9; 0; 0; 0; 0; 0; 0; 0; 236; 4]) = Ok (Some niw_group).
Proof. split; vm_compute; reflexivity. Qed.

(** The same message from another writer: the floats packed and first, the count given twice. *)
Example C94_other_writer :
  let rs := [RLen 2 [0; 0; 128; 63; 0; 0; 0; 64]; RVarint 1 7; RGroup 77 [RVarint 1 5; RFixed64 2 9];
             RVarint 1 (2 ^ 64 - 3)] in
  let sch := [required TInt32 1; repeated TFloat 2; repeated TFloat 3] in
  (exists l, records_bytes rs l) /\ Forall (fits 1) rs /\ absorbs_all sch (empty_message sch) rs niw_group.
Proof.
  cbv zeta. assert (F : Forall (fits 1) [RLen 2 [0; 0; 128; 63; 0; 0; 0; 64]; RVarint 1 7;
     RGroup 77 [RVarint 1 5; RFixed64 2 9]; RVarint 1 (2 ^ 64 - 3)]).
  { constructor; [constructor; [lia|cbn; lia|repeat constructor; lia]|].
    constructor; [constructor; lia|]. constructor; [|constructor; [constructor; lia|constructor]].
    constructor; [lia|]. repeat constructor; lia. }
  split; [eexists; eapply write_records_ok; exact F|]. split; [exact F|].
  eapply aa_cons.
  { eapply (ab_packed _ 2 _ [1065353216; 1073741824] _ [required TInt32 1] (repeated TFloat 2) [repeated TFloat 3]
              [One None] (Many []) [Many []]); try reflexivity.
    change [0; 0; 128; 63; 0; 0; 0; 64] with (little_endian 4 1065353216 ++ little_endian 4 1073741824 ++ []).
    repeat (apply pl_float; [reflexivity|lia|]). constructor. }
  eapply aa_cons.
  { eapply (ab_varint _ 1 7 _ [] (required TInt32 1) [repeated TFloat 2; repeated TFloat 3] []); try reflexivity. discriminate. }
  eapply aa_cons.
  { apply ab_unknown. intros f [<-|[<-|[<-|[]]]] [H _]; cbn in H; discriminate. }
  eapply aa_cons.
  { eapply (ab_varint _ 1 (2 ^ 64 - 3) _ [] (required TInt32 1) [repeated TFloat 2; repeated TFloat 3] []); try reflexivity. discriminate. }
  exact (aa_nil _ niw_group).
Qed.

(** Two groups that differ in one bit of one float are not equal. *)
Example C94_unequal : message_eq NormalInverseWishart_Group_code niw_group
  (Message [One (Some (-3)); Many [1065353217; 1073741824]; Many []] (unknown niw_group)) = Ok false
  /\ message_eq NormalInverseWishart_Group_code niw_group niw_group = Ok true.
Proof. split; vm_compute; reflexivity. Qed.

(** Merging that group into one that has a count and a float of its own. *)
Example C94_merged : merge_from NormalInverseWishart_Group_code niw_group
  (Message [One (Some 9); Many [3]; Many [4]] [])
  = Ok (Message [One (Some (-3)); Many [3; 1065353216; 1073741824]; Many [4]] (unknown niw_group)).
Proof. vm_compute. reflexivity. Qed.

(** A message that has required fields only and is cut short; and one that lacks them. *)
Example C94_bb_cut : parse (fun _ => 4%nat) 64 BetaBernoulli_Shared_code [13; 0; 0; 128; 63] = Ok None
  /\ parse (fun _ => 4%nat) 64 BetaBernoulli_Shared_code [13; 0; 0; 128; 63; 21; 0; 0; 0; 64]
     = Ok (Some (Message [One (Some 1065353216); One (Some 1073741824)] [])).
Proof. split; vm_compute; reflexivity. Qed.

Example C94_bb_required : Forall (fun f => f_label f = Required) [required TFloat 1; required TFloat 2]
  /\ In ("BetaBernoulli.Shared"%string, [required TFloat 1; required TFloat 2]) schema_proto.
Proof. split; [repeat constructor|cbn; tauto]. Qed.
