(** C94 for Clustering, the message of schema.proto that holds other messages.  [in_use d o] (spec) is every
    object that can be made through the interface, [shows o] what its accessors give; [d] bounds the nesting of
    unknown groups, [room] is the spare room of arrays while reading, [direct] tells which of the two writers
    the stream's buffer picks for each sub-message: every theorem is for all of them. *)
From Coq Require Import ZArith Lia List.
Import ListNotations.
From Verif.model Require Import Base Wire SchemaCode Schema SchemaClustering.
From Verif.spec Require Import WireSpec ClusteringMessageSpec ClusteringUse.
From Verif.proof Require Import WireProof SchemaGen SchemaWrite ClusteringMessage.
Local Open Scope Z_scope.

(** The accessors: setting, clearing or releasing one of the two messages changes that one only; a message
    that was absent is empty when it is first asked for, whatever it held before it was cleared. *)
Theorem C94_clustering_fields : forall d o, in_use d o ->
  (forall m, message_of d pitman_yor_schema m ->
     shows (cl_set_py (cl_mutable_py o) m) = Clustering (Some m) (low_entropy (shows o)) (others (shows o)))
  /\ (forall m, message_of d low_entropy_schema m ->
     shows (cl_set_le (cl_mutable_le o) m) = Clustering (pitman_yor (shows o)) (Some m) (others (shows o)))
  /\ cl_pitman_yor (cl_mutable_py o) = or_empty pitman_yor_schema (pitman_yor (shows o))
  /\ cl_low_entropy (cl_mutable_le o) = or_empty low_entropy_schema (low_entropy (shows o))
  /\ shows (cl_clear_py o) = Clustering None (low_entropy (shows o)) (others (shows o))
  /\ shows (cl_clear_le o) = Clustering (pitman_yor (shows o)) None (others (shows o))
  /\ shows (cl_release_py o) = Clustering None (low_entropy (shows o)) (others (shows o))
  /\ shows (cl_release_le o) = Clustering (pitman_yor (shows o)) None (others (shows o)).
Proof.
  intros d o U. destruct (cl_fields d o U) as (A & B & R). split; [|split; [|exact R]].
  - intros m Hm. apply A. eapply message_of_shaped, Hm.
  - intros m Hm. apply B. eapply message_of_shaped, Hm.
Qed.
Print Assumptions C94_clustering_fields.

(** Every object has a wire form; below 2 GB both writers write exactly that form, its size is computed
    exactly, and reading it - into any object, old contents and all - gives back what was shown. *)
Theorem C94_clustering_round_trip : forall d o, in_use d o ->
  exists rs l, clustering_records (shows o) rs /\ records_bytes rs l
    /\ (Z.of_nat (length l) < 2 ^ 31 ->
        (forall direct, cl_serialize direct o = Ok l) /\ cl_serialize_array o = Ok l
        /\ cl_byte_size o = Ok (Z.of_nat (length l)) /\ cl_serialize_to_string o = Ok l
        /\ forall room o2, in_use d o2 ->
             exists o', cl_parse_partial room (S d) o2 l = Ok (Some o') /\ shows o' = shows o
               /\ (clustering_complete (shows o) -> cl_parse room (S d) o2 l = Ok (Some o'))).
Proof.
  intros d o U. destruct (cl_writable d o U) as (rs & l & A & B). exists rs, l. split; [exact A|]. split; [exact B|].
  intros L. destruct (cl_written d o rs l U A B L) as (W & S & T & R). split; [exact W|].
  rewrite cl_serialize_array_same. split; [apply W|]. split; [exact S|]. split; [exact T|]. exact R.
Qed.
Print Assumptions C94_clustering_round_trip.

(** Bytes of any conforming writer: fields in any order, a sub-message in several pieces, unknown fields. *)
Theorem C94_clustering_any_writer : forall d rs l v, records_bytes rs l -> Forall (fits (S d)) rs ->
  clustering_absorbs_all d (Clustering None None []) rs v ->
  forall room o, in_use d o -> exists o', cl_parse_partial room (S d) o l = Ok (Some o') /\ shows o' = v
    /\ (clustering_complete v -> cl_parse room (S d) o l = Ok (Some o'))
    /\ (~ clustering_complete v -> cl_parse room (S d) o l = Ok None).
Proof. exact cl_any_writer. Qed.
Print Assumptions C94_clustering_any_writer.

(** Reading ends on every string of bytes, with nothing undefined and the same answer whatever the room and
    the recursion limit [k]. *)
Theorem C94_clustering_any_bytes : forall d room room' o l, in_use d o ->
  forall k, exists r r', cl_parse room k o l = Ok r /\ cl_parse room' k o l = Ok r'
    /\ option_map shows r = option_map shows r'.
Proof. exact cl_any_bytes. Qed.
Print Assumptions C94_clustering_any_bytes.

(** What is accepted is a Clustering whose messages, if set, have their required fields. *)
Theorem C94_clustering_accepted : forall d room o l o', in_use d o -> Forall (fun x => 0 <= x < 256) l ->
  cl_parse room (S d) o l = Ok (Some o') ->
  in_use d o' /\ clustering_of d (shows o') /\ clustering_complete (shows o').
Proof. exact cl_accepted. Qed.
Print Assumptions C94_clustering_accepted.

Theorem C94_clustering_initialized : forall d o, in_use d o ->
  (cl_is_initialized o = true <-> clustering_complete (shows o)).
Proof. exact cl_initialized. Qed.
Print Assumptions C94_clustering_initialized.

(** operator== (below 2 GB) holds exactly for objects that show the same. *)
Theorem C94_clustering_equal : forall d x y rx ry lx ly, in_use d x -> in_use d y ->
  clustering_records (shows x) rx -> records_bytes rx lx -> Z.of_nat (length lx) < 2 ^ 31 ->
  clustering_records (shows y) ry -> records_bytes ry ly -> Z.of_nat (length ly) < 2 ^ 31 ->
  exists b, cl_eq x y = Ok b /\ (b = true <-> shows x = shows y).
Proof. exact cl_equal. Qed.
Print Assumptions C94_clustering_equal.

(** MergeFrom puts the fields that are set in [x] over those of [o], message by message; the same comes of
    reading the bytes of [o] and then those of [x]. *)
Theorem C94_clustering_merge : forall d x o, in_use d x -> in_use d o ->
  exists o', cl_merge_from x o = Ok o' /\ clustering_over (shows o) (shows x) (shows o')
    /\ forall rx ro lx lo, clustering_records (shows x) rx -> records_bytes rx lx -> Z.of_nat (length lx) < 2 ^ 31 ->
         clustering_records (shows o) ro -> records_bytes ro lo -> Z.of_nat (length lo) < 2 ^ 31 ->
         forall room o2, in_use d o2 ->
         exists o3, cl_parse_partial room (S d) o2 (lo ++ lx) = Ok (Some o3) /\ shows o3 = shows o'.
Proof. exact cl_merged. Qed.
Print Assumptions C94_clustering_merge.

(** Clear leaves nothing to be seen, not even through mutable_x(), and CopyFrom shows the same as its source. *)
Theorem C94_clustering_copy : forall d x o, in_use d x -> in_use d o ->
  shows (cl_clear o) = Clustering None None []
  /\ (exists o', cl_copy_from x o = Ok o' /\ shows o' = shows x)
  /\ cl_pitman_yor (cl_mutable_py (cl_clear o)) = empty_message pitman_yor_schema
  /\ cl_low_entropy (cl_mutable_le (cl_clear o)) = empty_message low_entropy_schema.
Proof. exact cl_copied. Qed.
Print Assumptions C94_clustering_copy.

(** * Concrete cases *)

(** alpha = 1.0f, d = 0.5f, by their bits; dataset_size = 300. *)
Definition a_pitman_yor : message := Message [One (Some 1065353216); One (Some 1056964608)] [].
Definition a_low_entropy : message := Message [One (Some 300)] [].
Definition an_object : clustering_object := cl_set_py (cl_mutable_py cl_ctor) a_pitman_yor.
Definition another_object : clustering_object := cl_set_le (cl_mutable_le cl_ctor) a_low_entropy.

Example C94_clustering_in_use : in_use 0 an_object /\ in_use 0 another_object
  /\ shows an_object = Clustering (Some a_pitman_yor) None []
  /\ shows another_object = Clustering None (Some a_low_entropy) [].
Proof.
  split; [|split; [|split; reflexivity]].
  - apply use_set_py; [apply use_new|]. split; [repeat constructor; cbn; lia|constructor].
  - apply use_set_le; [apply use_new|]. split; [repeat constructor; cbn; lia|constructor].
Qed.

Example C94_clustering_bytes :
  cl_serialize_to_string an_object = Ok [10; 10; 13; 0; 0; 128; 63; 21; 0; 0; 0; 63]
  /\ cl_serialize_to_string another_object = Ok [18; 3; 8; 172; 2]
  /\ cl_byte_size another_object = Ok 5
  /\ cl_eq an_object another_object = Ok false.
Proof. repeat split; vm_compute; reflexivity. Qed.

(** The two fields of pitman_yor in two pieces, an unknown field between them. *)
Example C94_clustering_pieces :
  cl_parse (fun _ => 0%nat) 2 another_object [10; 5; 21; 0; 0; 0; 63; 40; 7; 10; 5; 13; 0; 0; 128; 63]
  = Ok (Some (ClObject 1 (Some a_pitman_yor) (Some (Message [One None] [])) [RVarint 5 7])).
Proof. vm_compute. reflexivity. Qed.

(** A sub-message without its required field is refused. *)
Example C94_clustering_incomplete : cl_parse (fun _ => 0%nat) 2 cl_ctor [10; 5; 21; 0; 0; 0; 63] = Ok None.
Proof. vm_compute. reflexivity. Qed.

(** The comment on the two fields, schema.proto:46, is "simulate a sum type"; nothing keeps a complete message from
    having both: two messages with one alternative each merge to a message with both, and it is read as such. *)
Theorem C94_clustering_one_alternative_refuted : exists x y o,
  in_use 0 x /\ in_use 0 y /\ clustering_complete (shows x) /\ clustering_complete (shows y)
  /\ low_entropy (shows x) = None /\ pitman_yor (shows y) = None
  /\ cl_merge_from x y = Ok o /\ cl_is_initialized o = true
  /\ pitman_yor (shows o) = Some a_pitman_yor /\ low_entropy (shows o) = Some a_low_entropy
  /\ exists l o', cl_serialize_to_string o = Ok l /\ cl_parse (fun _ => 0%nat) 1 cl_ctor l = Ok (Some o')
     /\ shows o' = shows o.
Proof.
  destruct C94_clustering_in_use as (Ux & Uy & _). eexists an_object, another_object, _.
  split; [exact Ux|]. split; [exact Uy|].
  split; [apply (cl_initialized 0); [exact Ux|reflexivity]|].
  split; [apply (cl_initialized 0); [exact Uy|reflexivity]|].
  split; [reflexivity|]. split; [reflexivity|]. split; [vm_compute; reflexivity|].
  split; [reflexivity|]. split; [reflexivity|]. split; [reflexivity|].
  eexists. eexists. split; [vm_compute; reflexivity|]. split; [vm_compute; reflexivity|]. reflexivity.
Qed.
Print Assumptions C94_clustering_one_alternative_refuted.
