(** Properties C52, C53, C63, C64: record streams on disk.  A file is a list of bytes;
    [drains] says what a "for" loop over the reader sees. *)
From Verif.model Require Import Base Stream.
From Verif.spec Require Import StreamSpec.
From Verif.proof Require Import StreamProof.
Local Open Scope Z_scope.

(** What a loop sees is determined by the file. *)
Theorem C52_reader_deterministic : forall f xs e ys e',
  drains protobuf_stream_read f xs e -> drains protobuf_stream_read f ys e' -> xs = ys /\ e = e'.
Proof. intros f xs e ys e' A B. exact (drains_det _ _ _ _ A _ _ B). Qed.
Print Assumptions C52_reader_deterministic.

(** Records shorter than 2^32 bytes: the file is the framing of the records, and reading
    it back sees exactly them. *)
Theorem C52_round_trip : forall items,
  Forall (fun x => Z.of_nat (length x) < 4294967296) items ->
  exists f, protobuf_stream_dump items = Ok f /\ framed items f /\
    drains protobuf_stream_read f items Stopped.
Proof.
  intros items H. destruct (writes_framed items [] H) as (f & E & HF).
  exists f. split; [exact E |]. split; [exact HF |]. exact (framed_read _ _ HF).
Qed.
Print Assumptions C52_round_trip.

(** A longer record is refused (struct.error), whatever precedes or follows it. *)
Theorem C52_long_record_refused : forall items,
  Exists (fun x => 4294967296 <= Z.of_nat (length x)) items -> protobuf_stream_dump items = Fail.
Proof. intros items H. exact (writes_too_long items [] H). Qed.
Print Assumptions C52_long_record_refused.

(** Cut between two records: the records before the cut. *)
Theorem C52_cut_at_boundary : forall before after f g,
  framed (before ++ after) f -> framed before g ->
  firstn (length g) f = g /\ drains protobuf_stream_read (firstn (length g) f) before Stopped.
Proof.
  intros before after f g Hf Hg.
  assert (exists h, framed after h) as (h & Hh).
  { clear Hg. revert f Hf. induction before as [| x xs IH]; intros f Hf; [now exists f |].
    cbn [app] in Hf. inversion Hf; subst. eauto. }
  rewrite (framed_fun _ _ Hf _ (framed_prefix _ _ Hg _ _ Hh)).
  rewrite firstn_app, firstn_all, Nat.sub_diag. cbn [firstn]. rewrite app_nil_r.
  split; [reflexivity |]. exact (framed_read _ _ Hg).
Qed.
Print Assumptions C52_cut_at_boundary.

(** A record of 2 bytes, an empty record, one of 3 bytes. *)
Example C52_nonvacuous :
  protobuf_stream_dump [[1; 2]; []; [7; 0; 255]] =
    Ok [2; 0; 0; 0; 1; 2; 0; 0; 0; 0; 3; 0; 0; 0; 7; 0; 255] /\
  Forall (fun x : list Z => Z.of_nat (length x) < 4294967296) [[1; 2]; []; [7; 0; 255]].
Proof. split; [reflexivity |]. repeat constructor. Qed.

(** C53 asks that a cut inside a record is reported.  It is not: every truncated file is
    read to a normal end of iteration, and a record cut in its payload is returned
    shortened. *)
Theorem C53_truncation_undetected_refuted : exists items f k,
  framed items f /\ (k < length f)%nat /\
  exists xs wrong, drains protobuf_stream_read (firstn k f) (xs ++ [wrong]) Stopped /\
    ~ In wrong items.
Proof.
  exists [[1; 2]; [7; 8; 9]], [2; 0; 0; 0; 1; 2; 3; 0; 0; 0; 7; 8; 9], 12%nat.
  split; [| split; [cbn; lia |]].
  - change [2; 0; 0; 0; 1; 2; 3; 0; 0; 0; 7; 8; 9]
      with ([2; 0; 0; 0] ++ [1; 2] ++ ([3; 0; 0; 0] ++ [7; 8; 9] ++ [])).
    constructor; [| constructor; [| constructor]].
    + exists 2, 0, 0, 0. unfold is_byte. cbn. repeat split; lia.
    + exists 3, 0, 0, 0. unfold is_byte. cbn. repeat split; lia.
  - exists [[1; 2]], [7; 8]. split.
    + cbn [firstn app]. eapply dr_item; [reflexivity |]. eapply dr_item; [reflexivity |].
      apply dr_stop. reflexivity.
    + intros [K | [K | []]]; discriminate.
Qed.
Print Assumptions C53_truncation_undetected_refuted.

(** Exactly what a cut at byte k does, for every list of records and every k: the records
    that are complete are returned as written and in order; a cut inside a length field
    loses the record silently; a cut inside a payload returns the bytes that are there as
    one more record.  The reader never raises. *)
Theorem C53_cut_anywhere_partial : forall items f k,
  framed items f -> (k <= length f)%nat ->
  exists complete g, (exists rest, items = complete ++ rest) /\ framed complete g /\ (length g <= k)%nat /\
    ((k - length g < 4)%nat /\
       drains protobuf_stream_read (firstn k f) complete Stopped
     \/
     exists x rest, items = complete ++ x :: rest /\
       (4 <= k - length g < 4 + length x)%nat /\
       drains protobuf_stream_read (firstn k f)
         (complete ++ [firstn (k - length g - 4) x]) Stopped).
Proof. intros items f k H. exact (framed_cut items f H k). Qed.
Print Assumptions C53_cut_anywhere_partial.

(** *** JSON lines *)

(** A stand-in JSON library: items are strings of digits, written as themselves; anything
    else is refused after an opening quote. *)
Definition digit (c : Z) : bool := (48 <=? c) && (c <=? 57).
Definition digits_dump (x : list Z) : dumped :=
  if forallb digit x then match x with [] => Broke [34] | _ => Whole x end else Broke [34].
Definition digits_loads (t : list Z) : option (list Z) :=
  match t with [] => None | _ => if forallb digit t then Some t else None end.

Lemma digit_spec c : digit c = true -> 48 <= c <= 57.
Proof. unfold digit. intros H. apply andb_true_iff in H as [A B]. apply Z.leb_le in A, B. lia. Qed.

Lemma digits_codec : codec digits_dump digits_loads.
Proof.
  split; [| split; [| reflexivity]].
  - intros x t H. unfold digits_dump in H. destruct (forallb digit x) eqn:E; [| discriminate].
    destruct x as [| c x]; [discriminate |]. injection H as <-.
    assert (forall d, In d (c :: x) -> 48 <= d <= 57) as HD.
    { intros d Hd. apply digit_spec. eapply forallb_forall; eassumption. }
    split; [split; [| split] |].
    + intros K. apply HD in K. unfold newline in K. lia.
    + destruct (@exists_last _ (c :: x) ltac:(discriminate)) as (l & d & EL).
      exists l, d. split; [exact EL |].
      assert (48 <= d <= 57) by (apply HD; rewrite EL; apply in_or_app; right; now left).
      unfold comma, newline. lia.
    + intros r K. injection K as K1 K2. specialize (HD c (or_introl eq_refl)). unfold rbracket in K1. lia.
    + unfold digits_loads. now rewrite E.
  - intros x t H. unfold digits_dump in H.
    assert (t = [34]) as ->.
    { destruct (forallb digit x); [destruct x; [| discriminate] |]; now injection H as <-. }
    split; [intros [K | []]; discriminate | discriminate].
Qed.

(** Writing then reading sees the items written, including none at all; the file is a
    JSON list, one item per line. *)
Theorem C63_json_round_trip : forall (X : Type) (dump1 : X -> dumped) (loads : list Z -> option X),
  codec dump1 loads -> forall xs ts, writes dump1 xs ts ->
  exists f fd, json_stream_dump dump1 xs = (f, true) /\ json_lines ts f /\
    json_stream_open f = Some fd /\ drains (json_stream_next loads) fd xs Stopped.
Proof.
  intros X dump1 loads HC xs ts W. destruct (dump_lines dump1 xs ts W) as (f & E & HF).
  destruct (round_trip dump1 loads HC xs ts f W HF) as (fd & EO & D).
  exists f, fd. auto.
Qed.
Print Assumptions C63_json_round_trip.

(** The coroutine version leaves the same file. *)
Theorem C63_costream_same_file : forall (X : Type) (dump1 : X -> dumped) xs ts,
  writes dump1 xs ts ->
  exists c, costream_sends dump1 xs costream_start = Some c /\
    co_file (costream_close c) = fst (json_stream_dump dump1 xs).
Proof. intros X dump1 xs ts. exact (costream_same dump1 xs ts). Qed.
Print Assumptions C63_costream_same_file.

Example C63_nonvacuous : codec digits_dump digits_loads /\
  writes digits_dump [[49; 50]; [55]] [[49; 50]; [55]] /\
  json_stream_dump digits_dump [[49; 50]; [55]] =
    ([91; 10; 49; 50; 44; 10; 55; 10; 93], true).
Proof. split; [exact digits_codec |]. split; [repeat constructor | reflexivity]. Qed.

(** Every strict prefix of a complete file is refused: at the start, or by an exception
    at the end of the loop; never a normal end.  All values before the exception but at
    most the last are the items written. *)
Theorem C64_truncation_raises : forall (X : Type) (dump1 : X -> dumped) (loads : list Z -> option X),
  codec dump1 loads -> forall xs ts f, writes dump1 xs ts -> json_lines ts f ->
  forall k, (k < length f)%nat ->
  json_stream_open (firstn k f) = None \/
  exists fd complete extra, json_stream_open (firstn k f) = Some fd /\
    (exists rest, xs = complete ++ rest) /\
    drains (json_stream_next loads) fd (complete ++ extra) Raised /\ (length extra <= 1)%nat.
Proof. intros X dump1 loads HC xs ts f. exact (truncated dump1 loads HC xs ts f). Qed.
Print Assumptions C64_truncation_raises.

(** An item that cannot be serialised: the dump raises, the items before it are in the
    file, and reading the file raises after them. *)
Theorem C64_broken_item_raises : forall (X : Type) (dump1 : X -> dumped) (loads : list Z -> option X),
  codec dump1 loads -> forall xs ts x part ys, writes dump1 xs ts -> dump1 x = Broke part ->
  exists f fd extra, json_stream_dump dump1 (xs ++ x :: ys) = (f, false) /\
    json_stream_open f = Some fd /\ drains (json_stream_next loads) fd (xs ++ extra) Raised.
Proof. intros X dump1 loads HC xs ts x part ys. exact (broken dump1 loads HC xs ts x part ys). Qed.
Print Assumptions C64_broken_item_raises.

(** The one extra value is real: "[\n12" cut to "[\n1" yields 1, then raises. *)
Example C64_nonvacuous :
  json_lines [[49; 50]] [91; 10; 49; 50; 10; 93] /\
  exists fd, json_stream_open (firstn 3 [91; 10; 49; 50; 10; 93]) = Some fd /\
    drains (json_stream_next digits_loads) fd [[49]] Raised.
Proof.
  split; [reflexivity |]. eexists; split; [reflexivity |].
  eapply dr_item; [reflexivity |]. apply dr_raise. reflexivity.
Qed.
