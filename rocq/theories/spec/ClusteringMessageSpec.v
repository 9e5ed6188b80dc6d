(** The message Clustering of distributions/io/schema.proto, lines 33-49: two optional messages, and the
    records with which the schema can do nothing. *)
From Coq Require Import ZArith List.
Import ListNotations.
From Verif.spec Require Import WireSpec.
Local Open Scope Z_scope.

Record clustering := Clustering {
  pitman_yor : option message; low_entropy : option message; others : list record }.

Definition pitman_yor_schema : schema := [required TFloat 1; required TFloat 2].
Definition low_entropy_schema : schema := [required TUint64 1].

(** A record that carries one of the two messages. *)
Definition carries_message (r : record) : Prop := exists b, r = RLen 1 b \/ r = RLen 2 b.

(** Groups nested at most [d] deep in the messages, and at most [d] + 1 outside: the messages themselves take
    one step. *)
Definition clustering_of (d : nat) (v : clustering) : Prop :=
  (forall m, pitman_yor v = Some m -> message_of d pitman_yor_schema m)
  /\ (forall m, low_entropy v = Some m -> message_of d low_entropy_schema m)
  /\ Forall (fun r => fits (S d) r /\ ~ carries_message r) (others v).

Definition clustering_complete (v : clustering) : Prop :=
  (forall m, pitman_yor v = Some m -> complete pitman_yor_schema m)
  /\ (forall m, low_entropy v = Some m -> complete low_entropy_schema m).

(** The record of a message under field number [n]. *)
Definition message_record (n : Z) (sch : schema) (v : option message) (rs : list record) : Prop :=
  match v with
  | None => rs = []
  | Some m => exists b, records_bytes (message_records sch m) b /\ rs = [RLen n b]
  end.

Definition clustering_records (v : clustering) (rs : list record) : Prop :=
  exists a b, message_record 1 pitman_yor_schema (pitman_yor v) a
    /\ message_record 2 low_entropy_schema (low_entropy v) b /\ rs = a ++ b ++ others v.

Definition or_empty (sch : schema) (v : option message) : message :=
  match v with Some m => m | None => empty_message sch end.

(** A message that comes again is taken into the one that is there. *)
Inductive clustering_absorbs (d : nat) : clustering -> record -> clustering -> Prop :=
| ca_pitman_yor v b rs m : records_bytes rs b -> Forall (fits d) rs ->
    absorbs_all pitman_yor_schema (or_empty pitman_yor_schema (pitman_yor v)) rs m ->
    clustering_absorbs d v (RLen 1 b) (Clustering (Some m) (low_entropy v) (others v))
| ca_low_entropy v b rs m : records_bytes rs b -> Forall (fits d) rs ->
    absorbs_all low_entropy_schema (or_empty low_entropy_schema (low_entropy v)) rs m ->
    clustering_absorbs d v (RLen 2 b) (Clustering (pitman_yor v) (Some m) (others v))
| ca_other v r : ~ carries_message r ->
    clustering_absorbs d v r (Clustering (pitman_yor v) (low_entropy v) (others v ++ [r])).

Inductive clustering_absorbs_all (d : nat) : clustering -> list record -> clustering -> Prop :=
| caa_nil v : clustering_absorbs_all d v [] v
| caa_cons v r v' rs v'' : clustering_absorbs d v r v' -> clustering_absorbs_all d v' rs v'' ->
    clustering_absorbs_all d v (r :: rs) v''.

(** Message [y] put on top of [x]: a field of [y] replaces, unknown fields are appended.  (Neither message has
    a repeated field.) *)
Definition message_over (x y r : message) : Prop :=
  unknown r = unknown x ++ unknown y
  /\ forall j, match nth_error (slots x) j, nth_error (slots y) j, nth_error (slots r) j with
               | Some (One a), Some (One b), Some (One c) => c = match b with Some _ => b | None => a end
               | None, None, None => True
               | _, _, _ => False
               end.

Definition over (sch : schema) (x y r : option message) : Prop :=
  match y with
  | None => r = x
  | Some b => exists c, r = Some c /\ message_over (or_empty sch x) b c
  end.

Definition clustering_over (x y r : clustering) : Prop :=
  over pitman_yor_schema (pitman_yor x) (pitman_yor y) (pitman_yor r)
  /\ over low_entropy_schema (low_entropy x) (low_entropy y) (low_entropy r)
  /\ others r = others x ++ others y.
