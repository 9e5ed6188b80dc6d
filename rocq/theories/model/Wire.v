(** The calls that src/io/schema.pb.cc makes into the protocol-buffer library (2.4 to 2.6): the
    CodedInputStream / CodedOutputStream primitives, WireFormatLite and WireFormat.  The library is not
    part of /repo; these definitions are the contract assumed of it.  A stream is the list of the bytes
    left; [None] is the answer false of a reading call. *)
From Verif.model Require Import Base.
From Verif.spec Require Import WireSpec.
Local Open Scope Z_scope.

(** CodedOutputStream::WriteVarint64, at most ten bytes (under WriteUInt64, WriteUInt32, WriteInt32 and
    WriteTag; called from schema.pb.cc:889-905 and the other SerializeWithCachedSizes). *)
Fixpoint write_varint_aux (k : nat) (n : Z) : list Z :=
  match k with
  | O => []
  | S k' => if n <? 128 then [n] else (n mod 128 + 128) :: write_varint_aux k' (n / 128)
  end.
(** the same with its ten bytes *)
Definition write_varint (n : Z) : list Z := write_varint_aux 10 n.

(** CodedInputStream::ReadVarint64 before its value is cut to the width of the result: at most ten
    bytes, false at the end of the stream (under ReadPrimitive, schema.pb.cc:1087). *)
Fixpoint read_varint_aux (k : nat) (l : list Z) : option (Z * list Z) :=
  match k, l with
  | O, _ => None
  | _, [] => None
  | S k', b :: t =>
      if b <? 128 then Some (b, t)
      else match read_varint_aux k' t with
           | Some (v, r) => Some (b - 128 + 128 * v, r)
           | None => None
           end
  end.
(** ReadVarint64 *)
Definition read_varint64 (l : list Z) : option (Z * list Z) :=
  match read_varint_aux 10 l with Some (v, r) => Some (v mod 2 ^ 64, r) | None => None end.
(** ReadVarint32: reads as many bytes, drops the upper bits. *)
Definition read_varint32 (l : list Z) : option (Z * list Z) :=
  match read_varint_aux 10 l with Some (v, r) => Some (v mod 2 ^ 32, r) | None => None end.

(** WriteLittleEndian32 / 64 (under WriteFloat, schema.pb.cc:893, and SerializeUnknownFields, 902). *)
Fixpoint write_le (k : nat) (v : Z) : list Z :=
  match k with O => [] | S k' => v mod 256 :: write_le k' (v / 256) end.
(** ReadLittleEndian32 / 64 (under ReadPrimitive<float>, schema.pb.cc:846). *)
Fixpoint read_le (k : nat) (l : list Z) : option (Z * list Z) :=
  match k, l with
  | O, _ => Some (0, l)
  | S _, [] => None
  | S k', b :: t => match read_le k' t with Some (v, r) => Some (b + 256 * v, r) | None => None end
  end.

(** MakeTag, GetTagFieldNumber, GetTagWireType (schema.pb.cc:841-844). *)
Definition make_tag (n wt : Z) : Z := 8 * n + wt.
(** schema.pb.cc:841 *)
Definition tag_number (t : Z) : Z := t / 8.
(** schema.pb.cc:844 *)
Definition tag_wire_type (t : Z) : Z := t mod 8.
(** WriteTag (under WriteFloat etc.) *)
Definition write_tag (n wt : Z) : list Z := write_varint (make_tag n wt).

(** ReadTag, schema.pb.cc:840.  [TEnd]: 0 because the stream (or the enclosing limit) is at its end, the
    one answer 0 after which ConsumedEntireMessage is true.  [TBad]: 0 because the tag is 0 or cannot be
    read. *)
Inductive tag_read := TEnd | TBad | TTag (t : Z) (rest : list Z).
(** schema.pb.cc:840 *)
Definition read_tag (l : list Z) : tag_read :=
  match l with
  | [] => TEnd
  | _ => match read_varint32 l with
         | Some (t, r) => if t =? 0 then TBad else TTag t r
         | None => TBad
         end
  end.

(** ExpectTag, schema.pb.cc:853: if the next bytes are the tag they are taken. *)
Fixpoint take_prefix (p l : list Z) : option (list Z) :=
  match p, l with
  | [], _ => Some l
  | a :: p', b :: l' => if a =? b then take_prefix p' l' else None
  | _ :: _, [] => None
  end.
(** schema.pb.cc:853 *)
Definition expect_tag (t : Z) (l : list Z) : option (list Z) := take_prefix (write_varint t) l.

(** PushLimit(len) (under ReadPackedPrimitiveNoInline, schema.pb.cc:2824, and ReadMessageNoVirtual, 1304)
    when the rest of the enclosing message is [l]: how many bytes of it lie before the new limit.  A limit
    behind the enclosing one leaves that one in force, as does a length that is negative as an int. *)
Definition push_limit (len : Z) (l : list Z) : nat :=
  if len <? 2 ^ 31 then Nat.min (Z.to_nat len) (length l) else length l.

(** The scalar types of the schema: WireFormatLite::TYPE_FLOAT, TYPE_UINT64, TYPE_UINT32, TYPE_INT32. *)
Inductive kind := KFloat | KU64 | KU32 | KI32.

(** WriteFloatNoTag and so on: the payload (under WriteFloat, WriteUInt64, WriteUInt32, WriteInt32;
    schema.pb.cc:893, 1118, 2909, 6832).  A negative int32 is extended to 64 bits. *)
Definition write_prim (k : kind) (v : Z) : list Z :=
  match k with
  | KFloat => write_le 4 v
  | KU64 | KU32 => write_varint v
  | KI32 => write_varint (v mod 2 ^ 64)
  end.

(** ReadPrimitive, schema.pb.cc:846, 1087, 2818, 6757.  int32: the low 32 bits, as a signed number. *)
Definition read_prim (k : kind) (l : list Z) : option (Z * list Z) :=
  match k with
  | KFloat => read_le 4 l
  | KU64 => read_varint64 l
  | KU32 => read_varint32 l
  | KI32 => match read_varint32 l with
            | Some (v, r) => Some (if v <? 2 ^ 31 then v else v - 2 ^ 32, r)
            | None => None
            end
  end.

(** VarintSize32 (under UInt32Size, schema.pb.cc:2987). *)
Definition varint_size32 (n : Z) : Z :=
  if n <? 2 ^ 7 then 1 else if n <? 2 ^ 14 then 2 else if n <? 2 ^ 21 then 3 else if n <? 2 ^ 28 then 4 else 5.
(** VarintSize64 (under UInt64Size, schema.pb.cc:1148). *)
Definition varint_size64 (n : Z) : Z :=
  if n <? 2 ^ 35 then
    if n <? 2 ^ 7 then 1 else if n <? 2 ^ 14 then 2 else if n <? 2 ^ 21 then 3
    else if n <? 2 ^ 28 then 4 else 5
  else
    if n <? 2 ^ 42 then 6 else if n <? 2 ^ 49 then 7 else if n <? 2 ^ 56 then 8
    else if n <? 2 ^ 63 then 9 else 10.
(** UInt64Size, UInt32Size, Int32Size (schema.pb.cc:1148, 2987, 6886): ten bytes for a negative int32. *)
Definition prim_size (k : kind) (v : Z) : Z :=
  match k with
  | KFloat => 4
  | KU64 => varint_size64 v
  | KU32 => varint_size32 v
  | KI32 => if v <? 0 then 10 else varint_size32 v
  end.

(** The loop of WireFormat::SkipMessage, which reads the inside of a group up to its end tag (under
    SkipField, schema.pb.cc:879).  The end of the stream makes SkipField fail (LastTagWas). *)
Fixpoint skip_group (skip : Z -> list Z -> option (record * list Z)) (fuel : nat) (n : Z) (l : list Z)
  : option (list record * list Z) :=
  match fuel with
  | O => None
  | S f =>
      match read_tag l with
      | TTag t rest =>
          if tag_wire_type t =? 4
          then if tag_number t =? n then Some ([], rest) else None
          else match skip t rest with
               | Some (u, r) => match skip_group skip f n r with
                                | Some (us, r') => Some (u :: us, r')
                                | None => None
                                end
               | None => None
               end
      | _ => None
      end
  end.

(** WireFormat::SkipField into the unknown fields, schema.pb.cc:879; [d] is what is left of the
    recursion limit. *)
Fixpoint skip_field (d : nat) (t : Z) (l : list Z) {struct d} : option (record * list Z) :=
  let n := tag_number t in
  let wt := tag_wire_type t in
  if wt =? 0 then
    match read_varint64 l with Some (v, r) => Some (RVarint n v, r) | None => None end
  else if wt =? 1 then
    match read_le 8 l with Some (v, r) => Some (RFixed64 n v, r) | None => None end
  else if wt =? 2 then
    match read_varint32 l with
    | Some (len, r) =>
        if (len <? 2 ^ 31) && (len <=? Z.of_nat (length r))
        then Some (RLen n (firstn (Z.to_nat len) r), skipn (Z.to_nat len) r)
        else None
    | None => None
    end
  else if wt =? 3 then
    match d with
    | O => None
    | S d' => match skip_group (skip_field d') (S (length l)) n l with
              | Some (rs, r) => Some (RGroup n rs, r)
              | None => None
              end
    end
  else if wt =? 5 then
    match read_le 4 l with Some (v, r) => Some (RFixed32 n v, r) | None => None end
  else None.

(** WireFormat::SerializeUnknownFields and SerializeUnknownFieldsToArray, schema.pb.cc:902, 920. *)
Fixpoint write_record (r : record) : list Z :=
  match r with
  | RVarint n v => write_tag n 0 ++ write_varint v
  | RFixed64 n v => write_tag n 1 ++ write_le 8 v
  | RLen n b => write_tag n 2 ++ write_varint (Z.of_nat (length b)) ++ b
  | RGroup n rs => write_tag n 3 ++ concat (map write_record rs) ++ write_tag n 4
  | RFixed32 n v => write_tag n 5 ++ write_le 4 v
  end.
(** schema.pb.cc:902 *)
Definition write_records (rs : list record) : list Z := concat (map write_record rs).

(** WireFormat::ComputeUnknownFieldsSize, schema.pb.cc:943. *)
Fixpoint record_size (r : record) : Z :=
  match r with
  | RVarint n v => varint_size32 (make_tag n 0) + varint_size64 v
  | RFixed64 n _ => varint_size32 (make_tag n 1) + 8
  | RLen n b => varint_size32 (make_tag n 2) + varint_size32 (Z.of_nat (length b)) + Z.of_nat (length b)
  | RGroup n rs => varint_size32 (make_tag n 3) + fold_right Z.add 0 (map record_size rs)
                   + varint_size32 (make_tag n 4)
  | RFixed32 n _ => varint_size32 (make_tag n 5) + 4
  end.
(** schema.pb.cc:943 *)
Definition records_size (rs : list record) : Z := fold_right Z.add 0 (map record_size rs).
