(** The protocol-buffer wire format, and the messages of distributions/io/schema.proto as they are
    written there.  Nothing here depends on the generated code. *)
From Coq Require Import ZArith String List.
Import ListNotations.
Local Open Scope Z_scope.

(** * Records

    A serialised message is a sequence of records; a record has a field number and a payload of one of
    five kinds.  Bytes are integers from 0 to 255.  A fixed 32-bit payload is the integer its four bytes
    spell, so a float is its IEEE bit pattern. *)
Inductive record : Type :=
| RVarint (n v : Z)
| RFixed64 (n v : Z)
| RLen (n : Z) (bytes : list Z)
| RGroup (n : Z) (rs : list record)
| RFixed32 (n v : Z).

(** Base 128, least significant digit first, high bit set on all digits but the last. *)
Inductive varint : Z -> list Z -> Prop :=
| varint_last n : 0 <= n < 128 -> varint n [n]
| varint_more n l : 128 <= n -> varint (n / 128) l -> varint n (128 + n mod 128 :: l).

(** Little endian, [k] bytes. *)
Fixpoint little_endian (k : nat) (v : Z) : list Z :=
  match k with
  | O => []
  | S k' => v mod 256 :: little_endian k' (v / 256)
  end.

(** The tag of a record: field number and wire type (0 varint, 1 fixed64, 2 length-delimited, 3 and 4
    start and end of a group, 5 fixed32). *)
Definition tag_bytes (n wt : Z) (l : list Z) : Prop := varint (8 * n + wt) l.

(** [record_bytes r l]: the bytes [l] are the record [r]. *)
Inductive record_bytes : record -> list Z -> Prop :=
| rb_varint n v t p : tag_bytes n 0 t -> varint v p -> record_bytes (RVarint n v) (t ++ p)
| rb_fixed64 n v t : tag_bytes n 1 t -> record_bytes (RFixed64 n v) (t ++ little_endian 8 v)
| rb_len n b t p : tag_bytes n 2 t -> varint (Z.of_nat (length b)) p -> record_bytes (RLen n b) (t ++ p ++ b)
| rb_group n rs t b e : tag_bytes n 3 t -> records_bytes rs b -> tag_bytes n 4 e ->
    record_bytes (RGroup n rs) (t ++ b ++ e)
| rb_fixed32 n v t : tag_bytes n 5 t -> record_bytes (RFixed32 n v) (t ++ little_endian 4 v)
with records_bytes : list record -> list Z -> Prop :=
| rbs_nil : records_bytes [] []
| rbs_cons r rs a b : record_bytes r a -> records_bytes rs b -> records_bytes (r :: rs) (a ++ b).

(** A record that fits the format: field number below 2^29, tag not 0, payload in range, groups nested
    at most [d] deep.  (Number 0 is reserved, but readers let it pass.) *)
Inductive fits : nat -> record -> Prop :=
| fits_varint d n v : 1 <= n < 2 ^ 29 -> 0 <= v < 2 ^ 64 -> fits d (RVarint n v)
| fits_fixed64 d n v : 0 <= n < 2 ^ 29 -> 0 <= v < 2 ^ 64 -> fits d (RFixed64 n v)
| fits_len d n b : 0 <= n < 2 ^ 29 -> Z.of_nat (length b) < 2 ^ 31 -> Forall (fun x => 0 <= x < 256) b ->
    fits d (RLen n b)
| fits_group d n rs : 0 <= n < 2 ^ 29 -> Forall (fits d) rs -> fits (S d) (RGroup n rs)
| fits_fixed32 d n v : 0 <= n < 2 ^ 29 -> 0 <= v < 2 ^ 32 -> fits d (RFixed32 n v).

Definition number (r : record) : Z :=
  match r with RVarint n _ | RFixed64 n _ | RLen n _ | RGroup n _ | RFixed32 n _ => n end.

(** * Messages *)

Inductive label := Required | Repeated.
Inductive ftype := TFloat | TUint64 | TUint32 | TInt32.
Record field := Field { f_label : label; f_type : ftype; f_number : Z }.
Definition schema := list field.

(** The value of a field: present or not, or any number of values. *)
Inductive slot := One (v : option Z) | Many (vs : list Z).

(** A message: one slot for each field of its schema, and the records with which the schema can do
    nothing, which are kept. *)
Record message := Message { slots : list slot; unknown : list record }.

Definition in_type (t : ftype) (v : Z) : Prop :=
  match t with
  | TFloat | TUint32 => 0 <= v < 2 ^ 32
  | TUint64 => 0 <= v < 2 ^ 64
  | TInt32 => - 2 ^ 31 <= v < 2 ^ 31
  end.

(** The record that carries value [v] of a field.  A negative int32 is written as 64 bits. *)
Definition value_record (f : field) (v : Z) : record :=
  match f_type f with
  | TFloat => RFixed32 (f_number f) v
  | TUint64 | TUint32 => RVarint (f_number f) v
  | TInt32 => RVarint (f_number f) (v mod 2 ^ 64)
  end.

Definition slot_values (s : slot) : list Z :=
  match s with One None => [] | One (Some v) => [v] | Many vs => vs end.

(** The records of a message: its fields in the order of the schema, then the unknown ones. *)
Definition message_records (sch : schema) (m : message) : list record :=
  concat (map (fun fs => map (value_record (fst fs)) (slot_values (snd fs))) (combine sch (slots m)))
  ++ unknown m.

Definition slot_ok (f : field) (s : slot) : Prop :=
  match f_label f, s with
  | Required, One (Some v) => in_type (f_type f) v
  | Required, One None => True
  | Repeated, Many vs => Forall (in_type (f_type f)) vs
  | _, _ => False
  end.

(** A record of field [f] that carries a value of it; a repeated field may also come packed. *)
Definition carries (f : field) (r : record) : Prop :=
  number r = f_number f /\
  match r with
  | RVarint _ _ => f_type f <> TFloat
  | RFixed32 _ _ => f_type f = TFloat
  | RLen _ _ => f_label f = Repeated
  | _ => False
  end.

(** A message of a schema; groups among the unknown fields nested at most [d] deep. *)
Definition message_of (d : nat) (sch : schema) (m : message) : Prop :=
  Forall2 slot_ok sch (slots m)
  /\ Forall (fun r => fits d r /\ forall f, In f sch -> ~ carries f r) (unknown m).

Definition complete (sch : schema) (m : message) : Prop :=
  Forall2 (fun f s => f_label f = Required -> s <> One None) sch (slots m).

Definition empty_message (sch : schema) : message :=
  Message (map (fun f => match f_label f with Required => One None | Repeated => Many [] end) sch) [].

(** * What a record does to a message *)

(** The value of a varint for a field of a given type: wider integers are cut to 32 bits. *)
Definition of_varint (t : ftype) (v : Z) : Z :=
  match t with
  | TUint32 => v mod 2 ^ 32
  | TInt32 => (v + 2 ^ 31) mod 2 ^ 32 - 2 ^ 31
  | _ => v
  end.

(** The last value of a field wins; a repeated field collects. *)
Definition add_value (v : Z) (s : slot) : slot :=
  match s with One _ => One (Some v) | Many vs => Many (vs ++ [v]) end.
Definition add_values (vs : list Z) (s : slot) : slot := fold_left (fun s v => add_value v s) vs s.

(** [payloads t vs b]: the bytes [b] are the values [vs], packed. *)
Inductive payloads (t : ftype) : list Z -> list Z -> Prop :=
| pl_nil : payloads t [] []
| pl_float v vs b : t = TFloat -> 0 <= v < 2 ^ 32 -> payloads t vs b ->
    payloads t (v :: vs) (little_endian 4 v ++ b)
| pl_varint v p vs b : t <> TFloat -> 0 <= v < 2 ^ 64 -> varint v p -> payloads t vs b ->
    payloads t (of_varint t v :: vs) (p ++ b).

Inductive absorbs (sch : schema) : message -> record -> message -> Prop :=
| ab_varint n v m a f b x s y :
    sch = a ++ f :: b -> slots m = x ++ s :: y -> length x = length a ->
    f_number f = n -> f_type f <> TFloat ->
    absorbs sch m (RVarint n v) (Message (x ++ add_value (of_varint (f_type f) v) s :: y) (unknown m))
| ab_float n v m a f b x s y :
    sch = a ++ f :: b -> slots m = x ++ s :: y -> length x = length a ->
    f_number f = n -> f_type f = TFloat ->
    absorbs sch m (RFixed32 n v) (Message (x ++ add_value v s :: y) (unknown m))
| ab_packed n bytes vs m a f b x s y :
    sch = a ++ f :: b -> slots m = x ++ s :: y -> length x = length a ->
    f_number f = n -> f_label f = Repeated -> payloads (f_type f) vs bytes ->
    absorbs sch m (RLen n bytes) (Message (x ++ add_values vs s :: y) (unknown m))
| ab_unknown r m :
    (forall f, In f sch -> ~ carries f r) ->
    absorbs sch m r (Message (slots m) (unknown m ++ [r])).

Inductive absorbs_all (sch : schema) : message -> list record -> message -> Prop :=
| aa_nil m : absorbs_all sch m [] m
| aa_cons m r m' rs m'' : absorbs sch m r m' -> absorbs_all sch m' rs m'' -> absorbs_all sch m (r :: rs) m''.

(** * distributions/io/schema.proto, lines 33-158 *)
Definition required (t : ftype) (n : Z) := Field Required t n.
Definition repeated (t : ftype) (n : Z) := Field Repeated t n.

Definition schema_proto : list (string * schema) :=
  [ ("Clustering.PitmanYor", [required TFloat 1; required TFloat 2]);
    ("Clustering.LowEntropy", [required TUint64 1]);
    ("BetaBernoulli.Shared", [required TFloat 1; required TFloat 2]);
    ("BetaBernoulli.Group", [required TUint64 1; required TUint64 2]);
    ("BetaBernoulli", []);
    ("DirichletDiscrete.Shared", [repeated TFloat 1]);
    ("DirichletDiscrete.Group", [repeated TUint64 1]);
    ("DirichletDiscrete", []);
    ("DirichletProcessDiscrete.Shared",
      [required TFloat 1; required TFloat 2; repeated TUint32 3; repeated TFloat 4; repeated TUint64 5]);
    ("DirichletProcessDiscrete.Group", [repeated TUint32 1; repeated TUint64 2]);
    ("DirichletProcessDiscrete", []);
    ("PitmanYorProcessDiscrete.Shared", [required TFloat 1; repeated TFloat 2; repeated TUint64 3]);
    ("PitmanYorProcessDiscrete.Group", [repeated TUint32 1; repeated TUint64 2]);
    ("PitmanYorProcessDiscrete", []);
    ("GammaPoisson.Shared", [required TFloat 1; required TFloat 2]);
    ("GammaPoisson.Group", [required TUint64 1; required TUint64 2; required TFloat 3]);
    ("GammaPoisson", []);
    ("BetaNegativeBinomial.Shared", [required TFloat 1; required TFloat 2; required TUint64 3]);
    ("BetaNegativeBinomial.Group", [required TUint64 1; required TUint64 2]);
    ("BetaNegativeBinomial", []);
    ("NormalInverseChiSq.Shared", [required TFloat 1; required TFloat 2; required TFloat 3; required TFloat 4]);
    ("NormalInverseChiSq.Group", [required TUint64 1; required TFloat 2; required TFloat 3]);
    ("NormalInverseChiSq", []);
    ("NormalInverseWishart.Shared",
      [repeated TFloat 1; required TFloat 2; repeated TFloat 3; required TFloat 4]);
    ("NormalInverseWishart.Group", [required TInt32 1; repeated TFloat 2; repeated TFloat 3]);
    ("NormalInverseWishart", []) ]%string.
