(** The message Clustering of src/io/schema.pb.cc (1223-1483) and include/distributions/io/schema.pb.h
    (2629-2689), the one message that holds others.  Not modelled: Swap, GetMetadata, New, the destructor and
    the default instance (1252-1281), which own memory but no values. *)
From Verif.model Require Import Base Wire SchemaCode Schema.
From Verif.spec Require Import WireSpec.
Local Open Scope Z_scope.

(** The members of a Clustering, schema.pb.h:240-345: the has-bits, the two pointers (NULL is [None]; each
    object is pointed to by this message only), the unknown fields. *)
Record clustering_object := ClObject {
  cl_bits : Z; cl_py : option message; cl_le : option message; cl_unknown : list record }.

(** SharedCtor, schema.pb.cc:1245-1250. *)
Definition cl_ctor : clustering_object := ClObject 0 None None [].

(** has_pitman_yor, schema.pb.h:2634-2636. *)
Definition cl_has_py (o : clustering_object) : bool := negb (Z.land (cl_bits o) 1 =? 0).
(** has_low_entropy, schema.pb.h:2663-2665. *)
Definition cl_has_le (o : clustering_object) : bool := negb (Z.land (cl_bits o) 2 =? 0).

(** pitman_yor, schema.pb.h:2647-2649; the default instance is an empty message. *)
Definition cl_pitman_yor (o : clustering_object) : message :=
  match cl_py o with Some m => m | None => ctor Clustering_PitmanYor_code end.
(** low_entropy, schema.pb.h:2676-2678. *)
Definition cl_low_entropy (o : clustering_object) : message :=
  match cl_le o with Some m => m | None => ctor Clustering_LowEntropy_code end.

(** mutable_pitman_yor, schema.pb.h:2650-2654. *)
Definition cl_mutable_py (o : clustering_object) : clustering_object :=
  ClObject (Z.lor (cl_bits o) 1)
           (Some (match cl_py o with Some m => m | None => ctor Clustering_PitmanYor_code end))
           (cl_le o) (cl_unknown o).
(** mutable_low_entropy, schema.pb.h:2679-2683. *)
Definition cl_mutable_le (o : clustering_object) : clustering_object :=
  ClObject (Z.lor (cl_bits o) 2) (cl_py o)
           (Some (match cl_le o with Some m => m | None => ctor Clustering_LowEntropy_code end))
           (cl_unknown o).

(** What is done to the message behind the pointer, e.g. schema.pb.cc:1304-1305: it becomes [m]. *)
Definition cl_set_py (o : clustering_object) (m : message) : clustering_object :=
  ClObject (cl_bits o) (Some m) (cl_le o) (cl_unknown o).
(** The same for low_entropy, schema.pb.cc:1318-1319. *)
Definition cl_set_le (o : clustering_object) (m : message) : clustering_object :=
  ClObject (cl_bits o) (cl_py o) (Some m) (cl_unknown o).

(** clear_pitman_yor, schema.pb.h:2643-2646. *)
Definition cl_clear_py (o : clustering_object) : clustering_object :=
  ClObject (Z.ldiff (cl_bits o) 1) (option_map (clear Clustering_PitmanYor_code) (cl_py o)) (cl_le o) (cl_unknown o).
(** clear_low_entropy, schema.pb.h:2672-2675. *)
Definition cl_clear_le (o : clustering_object) : clustering_object :=
  ClObject (Z.ldiff (cl_bits o) 2) (cl_py o) (option_map (clear Clustering_LowEntropy_code) (cl_le o)) (cl_unknown o).

(** release_pitman_yor, schema.pb.h:2655-2660: the object left behind. *)
Definition cl_release_py (o : clustering_object) : clustering_object :=
  ClObject (Z.ldiff (cl_bits o) 1) None (cl_le o) (cl_unknown o).
(** release_low_entropy, schema.pb.h:2684-2689. *)
Definition cl_release_le (o : clustering_object) : clustering_object :=
  ClObject (Z.ldiff (cl_bits o) 2) (cl_py o) None (cl_unknown o).

(** _has_bits_[0 / 32] & (0xffu << (0 % 32)), schema.pb.cc:1284. *)
Definition cl_has_any (o : clustering_object) : bool := negb (Z.land (cl_bits o) 255 =? 0).

(** Clear, schema.pb.cc:1283-1294: the messages pointed to are cleared, not deleted. *)
Definition cl_clear (o : clustering_object) : clustering_object :=
  let py := if cl_has_any o && cl_has_py o then option_map (clear Clustering_PitmanYor_code) (cl_py o) else cl_py o in
  let le := if cl_has_any o && cl_has_le o then option_map (clear Clustering_LowEntropy_code) (cl_le o) else cl_le o in
  ClObject 0 py le [].

(** * Writing *)

(** WriteMessageMaybeToArray and WriteMessageNoVirtualToArray, schema.pb.cc:1349, 1369: tag, cached size, and
    the message by its SerializeWithCachedSizesToArray ([direct]) or SerializeWithCachedSizes.  The cached size
    is what ByteSize gives: SerializeToString calls it before. *)
Definition write_message (direct : bool) (c : code) (num : Z) (m : message) : outcome (list Z) :=
  let* n := byte_size c m in
  let* b := write_stmts m (if direct then c_write_array c else c_write c) in
  Ok (write_tag num 2 ++ write_varint n ++ b).

(** SerializeWithCachedSizes, schema.pb.cc:1345-1363; [direct n] says whether the stream has room in its buffer
    for all of sub-message [n]. *)
Definition cl_serialize (direct : Z -> bool) (o : clustering_object) : outcome (list Z) :=
  let* a := if cl_has_py o then write_message (direct 1) Clustering_PitmanYor_code 1 (cl_pitman_yor o) else Ok [] in
  let* b := if cl_has_le o then write_message (direct 2) Clustering_LowEntropy_code 2 (cl_low_entropy o) else Ok [] in
  Ok (a ++ b ++ match cl_unknown o with [] => [] | us => write_records us end).

(** SerializeWithCachedSizesToArray, schema.pb.cc:1365-1386. *)
Definition cl_serialize_array (o : clustering_object) : outcome (list Z) :=
  let* a := if cl_has_py o then write_message true Clustering_PitmanYor_code 1 (cl_pitman_yor o) else Ok [] in
  let* b := if cl_has_le o then write_message true Clustering_LowEntropy_code 2 (cl_low_entropy o) else Ok [] in
  Ok (a ++ b ++ match cl_unknown o with [] => [] | us => write_records us end).

(** MessageSizeNoVirtual, schema.pb.cc:1395: LengthDelimitedSize(ByteSize()), in int. *)
Definition message_size (c : code) (m : message) : outcome Z :=
  let* n := byte_size c m in i32 (varint_size32 n + n).

(** ByteSize, schema.pb.cc:1388-1416. *)
Definition cl_byte_size (o : clustering_object) : outcome Z :=
  let* t := if cl_has_any o then
              let* a := if cl_has_py o
                        then let* n := message_size Clustering_PitmanYor_code (cl_pitman_yor o) in
                             let* k := i32 (1 + n) in i32 (0 + k)
                        else Ok 0 in
              if cl_has_le o
              then let* n := message_size Clustering_LowEntropy_code (cl_low_entropy o) in
                   let* k := i32 (1 + n) in i32 (a + k)
              else Ok a
            else Ok 0 in
  match cl_unknown o with
  | [] => Ok t
  | us => let* u := i32 (records_size us) in i32 (t + u)
  end.

(** MessageLite::SerializeToString, as [serialize_to_string]. *)
Definition cl_serialize_to_string (o : clustering_object) : outcome (list Z) :=
  let* n := cl_byte_size o in
  let* l := cl_serialize_array o in
  if Z.of_nat (length l) =? n then Ok l
  else if Z.of_nat (length l) <? n then Fail else UB.

(** operator==, include/distributions/io/protobuf.hpp:81-89. *)
Definition cl_eq (x y : clustering_object) : outcome bool :=
  let* a := cl_serialize_to_string x in
  let* b := cl_serialize_to_string y in
  Ok (if list_eq_dec Z.eq_dec a b then true else false).

(** IsInitialized, schema.pb.cc:1455-1464. *)
Definition cl_is_initialized (o : clustering_object) : bool :=
  if cl_has_py o && negb (is_initialized Clustering_PitmanYor_code (cl_pitman_yor o)) then false
  else if cl_has_le o && negb (is_initialized Clustering_LowEntropy_code (cl_low_entropy o)) then false
  else true.

(** * Reading *)

Section Read.
  Context (room : list Z -> nat).

  (** ReadMessageNoVirtual, schema.pb.cc:1304, 1318: the length, one step of the recursion limit [d], and the
      fields up to the length's end go into the message [m]. *)
  Definition read_message (d : nat) (c : code) (m : message) (l : list Z) : outcome (option (message * list Z)) :=
    match read_varint32 l with
    | None => Ok None
    | Some (len, r) =>
        match d with
        | O => Ok None
        | S d' =>
            let k := push_limit len r in
            let* q := merge_from_stream room d' c (S k) GoLoop m (firstn k r) in
            Ok (match q with Some m' => Some (m', skipn k r) | None => None end)
        end
    end.

  Context (d : nat).

  (** The answer of a reading step, as [stepped]. *)
  Definition cl_stepped := outcome (option (clustering_object * next * list Z)).

  (** case 1 after the wire type, schema.pb.cc:1304-1310; [GoRead 1] is the label parse_low_entropy. *)
  Definition cl_read_py (o : clustering_object) (l : list Z) : cl_stepped :=
    let o1 := cl_mutable_py o in
    let* q := read_message d Clustering_PitmanYor_code (cl_pitman_yor o1) l in
    match q with
    | None => Ok None
    | Some (m, r) =>
        let o2 := cl_set_py o1 m in
        match expect_tag 18 r with
        | Some r' => Ok (Some (o2, GoRead 1, r'))
        | None => Ok (Some (o2, GoLoop, r))
        end
    end.

  (** parse_low_entropy, schema.pb.cc:1317-1324. *)
  Definition cl_read_le (o : clustering_object) (l : list Z) : cl_stepped :=
    let o1 := cl_mutable_le o in
    let* q := read_message d Clustering_LowEntropy_code (cl_low_entropy o1) l in
    match q with
    | None => Ok None
    | Some (m, r) =>
        let o2 := cl_set_le o1 m in
        match r with
        | [] => Ok (Some (o2, GoDone, r))
        | _ => Ok (Some (o2, GoLoop, r))
        end
    end.

  (** handle_uninterpreted, schema.pb.cc:1328-1337; see [uninterpreted]. *)
  Definition cl_uninterpreted (t : Z) (o : clustering_object) (l : list Z) : cl_stepped :=
    if tag_wire_type t =? 4 then Ok None
    else match skip_field d t l with
         | None => Ok None
         | Some (u, r) => Ok (Some (ClObject (cl_bits o) (cl_py o) (cl_le o) (cl_unknown o ++ [u]), GoLoop, r))
         end.

  (** The switch, schema.pb.cc:1299-1338. *)
  Definition cl_read_top (o : clustering_object) (l : list Z) : cl_stepped :=
    match read_tag l with
    | TEnd => Ok (Some (o, GoDone, l))
    | TBad => Ok None
    | TTag t r =>
        if tag_number t =? 1 then
          if tag_wire_type t =? 2 then cl_read_py o r else cl_uninterpreted t o r
        else if tag_number t =? 2 then
          if tag_wire_type t =? 2 then cl_read_le o r else cl_uninterpreted t o r
        else cl_uninterpreted t o r
    end.

  (** MergePartialFromCodedStream, schema.pb.cc:1296-1343, to the end of the stream; [fuel] bounds the number
      of passes by the number of bytes. *)
  Fixpoint cl_merge_from_stream (fuel : nat) (nx : next) (o : clustering_object) (l : list Z)
    : outcome (option clustering_object) :=
    match nx with
    | GoDone => Ok (Some o)
    | _ =>
        match fuel with
        | O => Ok None
        | S f =>
            let* r := match nx with GoRead _ => cl_read_le o l | _ => cl_read_top o l end in
            match r with
            | None => Ok None
            | Some (o', nx', l') => cl_merge_from_stream f nx' o' l'
            end
        end
    end.

  (** MessageLite::ParsePartialFromString into an object that may have been used before. *)
  Definition cl_parse_partial (o : clustering_object) (l : list Z) : outcome (option clustering_object) :=
    cl_merge_from_stream (S (length l)) GoLoop (cl_clear o) l.

  (** MessageLite::ParseFromString. *)
  Definition cl_parse (o : clustering_object) (l : list Z) : outcome (option clustering_object) :=
    let* r := cl_parse_partial o l in
    Ok (match r with
        | Some o' => if cl_is_initialized o' then Some o' else None
        | None => None
        end).
End Read.

(** * Merging *)

(** MergeFrom, schema.pb.cc:1430-1441; two different objects (GOOGLE_CHECK_NE). *)
Definition cl_merge_from (from o : clustering_object) : outcome clustering_object :=
  let* o1 := if cl_has_any from then
               let* a := if cl_has_py from
                         then let o' := cl_mutable_py o in
                              let* m := merge_from Clustering_PitmanYor_code (cl_pitman_yor from) (cl_pitman_yor o') in
                              Ok (cl_set_py o' m)
                         else Ok o in
               if cl_has_le from
               then let a' := cl_mutable_le a in
                    let* m := merge_from Clustering_LowEntropy_code (cl_low_entropy from) (cl_low_entropy a') in
                    Ok (cl_set_le a' m)
               else Ok a
             else Ok o in
  Ok (ClObject (cl_bits o1) (cl_py o1) (cl_le o1) (cl_unknown o1 ++ cl_unknown from)).

(** CopyFrom, schema.pb.cc:1449-1453. *)
Definition cl_copy_from (from o : clustering_object) : outcome clustering_object :=
  cl_merge_from from (cl_clear o).
