(** The shapes of statement that make up the functions of src/io/schema.pb.cc and
    include/distributions/io/schema.pb.h, and what each function does with them.  The literals of each
    message's functions are in Schema.v.

    A message object is a [message] of WireSpec.v: a singular member with its has-bit set is
    [One (Some v)], with the bit clear [One None] (the stale value of a member whose bit is clear is not
    kept: every function below looks at the bit first); a RepeatedField is [Many vs]; the
    UnknownFieldSet is the list of its fields.  A float is its bit pattern. *)
From Verif.model Require Import Base Wire.
From Verif.spec Require Import WireSpec.
Local Open Scope Z_scope.

(** A case of the switch in MergePartialFromCodedStream, e.g. schema.pb.cc:2813-2833: the field number,
    the wire type it wants, the type it reads, the member it stores to, for a repeated field the tag
    given to ReadRepeatedPrimitive and the type given to ReadPackedPrimitiveNoInline, the tags tried by
    ExpectTag with the case whose label is jumped to, and whether ExpectAtEnd ends the case. *)
Record pcase := PCase {
  pc_num : Z; pc_wt : Z; pc_kind : kind; pc_slot : nat; pc_rep : option (Z * kind);
  pc_expect : list (Z * nat); pc_end : bool }.

(** A statement of SerializeWithCachedSizes or ...ToArray: [if (has_x()) WriteT(num, x)], e.g.
    schema.pb.cc:892-894, or the loop over a repeated field, e.g. 2908-2911. *)
Inductive sstmt := SOne (x : nat) (num : Z) (k : kind) | SRep (x : nat) (num : Z) (k : kind).

(** A statement of ByteSize: the tag's size and the type, e.g. schema.pb.cc:931-933 and 2984-2991. *)
Inductive zstmt := ZOne (x : nat) (tag_size : Z) (k : kind) | ZRep (x : nat) (tag_size : Z) (k : kind).

(** The functions of one message.  [c_has]: for each member its has-bit (schema.pb.h:2561; none for a
    repeated field). *)
Record code := Code {
  c_has : list (option Z);
  c_clear_rep : list nat;
  c_parse : list pcase;
  c_write : list sstmt;
  c_write_array : list sstmt;
  c_size_one : list zstmt;
  c_size_rep : list zstmt;
  c_merge_rep : list nat;
  c_merge_one : list nat;
  c_init : Z }.

(** SharedCtor, e.g. schema.pb.cc:791-796. *)
Definition ctor (c : code) : message :=
  Message (map (fun h => match h with Some _ => One None | None => Many [] end) (c_has c)) [].

(** has_x() as stored, schema.pb.h:2560-2562 *)
Definition present (s : slot) : bool := match s with One (Some _) => true | _ => false end.

(** _has_bits_[0]: the bits of the members present (set_has_x, schema.pb.h:2563-2565). *)
Definition has_bits (c : code) (m : message) : Z :=
  fold_right Z.lor 0 (map (fun hs => match fst hs with
                                     | Some b => if present (snd hs) then b else 0
                                     | None => 0
                                     end) (combine (c_has c) (slots m))).

(** _has_bits_[0 / 32] & (0xffu << (0 % 32)), e.g. schema.pb.cc:929 *)
Definition has_any (c : code) (m : message) : bool := negb (Z.land (has_bits c m) 255 =? 0).

(** IsInitialized, e.g. schema.pb.cc:989-993 *)
Definition is_initialized (c : code) (m : message) : bool :=
  Z.land (has_bits c m) (c_init c) =? c_init c.

(** Clear, e.g. schema.pb.cc:2764-2774: the has-bits become 0, the listed repeated fields empty. *)
Definition clear (c : code) (m : message) : message :=
  let ones := map (fun s => match s with One _ => One None | Many vs => Many vs end) (slots m) in
  Message (fold_left (fun ss x => upd ss x (Many [])) (c_clear_rep c) ones) [].

(** * Writing *)

(** One statement of SerializeWithCachedSizes *)
Definition write_stmt (m : message) (s : sstmt) : outcome (list Z) :=
  match s with
  | SOne x num k =>
      let* v := vget (slots m) x in
      match v with
      | One (Some v) => Ok (write_tag num (match k with KFloat => 5 | _ => 0 end) ++ write_prim k v)
      | One None => Ok []
      | Many _ => UB
      end
  | SRep x num k =>
      let* v := vget (slots m) x in
      match v with
      | Many vs => Ok (concat (map (fun v => write_tag num (match k with KFloat => 5 | _ => 0 end)
                                               ++ write_prim k v) vs))
      | One _ => UB
      end
  end.

(** SerializeWithCachedSizes and SerializeWithCachedSizesToArray, e.g. schema.pb.cc:2895-2929, 2931-2966 *)
Fixpoint write_stmts (m : message) (ss : list sstmt) : outcome (list Z) :=
  match ss with
  | [] => Ok (write_records (unknown m))
  | s :: t => let* a := write_stmt m s in let* b := write_stmts m t in Ok (a ++ b)
  end.

(** SerializeWithCachedSizes *)
Definition serialize (c : code) (m : message) : outcome (list Z) := write_stmts m (c_write c).

(** The size of the payloads of a repeated field, schema.pb.cc:2985-2989 and 2995-2996, in int. *)
Fixpoint data_size (k : kind) (acc : Z) (vs : list Z) : outcome Z :=
  match vs with
  | [] => Ok acc
  | v :: t => let* a := i32 (acc + prim_size k v) in data_size k a t
  end.

(** One statement of ByteSize, in int: signed overflow is undefined. *)
Definition size_stmt (m : message) (total : Z) (s : zstmt) : outcome Z :=
  match s with
  | ZOne x ts k =>
      let* v := vget (slots m) x in
      match v with
      | One (Some v) => i32 (total + (ts + prim_size k v))
      | One None => Ok total
      | Many _ => UB
      end
  | ZRep x ts k =>
      let* v := vget (slots m) x in
      match v with
      | Many vs =>
          let* sz := i32 (Z.of_nat (length vs)) in
          let* d := match k with
                    | KFloat => i32 (4 * sz)
                    | _ => data_size k 0 vs
                    end in
          let* a := i32 (ts * sz) in
          let* b := i32 (a + d) in
          i32 (total + b)
      | One _ => UB
      end
  end.
(** The statements in order. *)
Fixpoint size_stmts (m : message) (total : Z) (ss : list zstmt) : outcome Z :=
  match ss with
  | [] => Ok total
  | s :: t => let* a := size_stmt m total s in size_stmts m a t
  end.

(** ByteSize, e.g. schema.pb.cc:2968-3019 *)
Definition byte_size (c : code) (m : message) : outcome Z :=
  let* a := if has_any c m then size_stmts m 0 (c_size_one c) else Ok 0 in
  let* b := size_stmts m a (c_size_rep c) in
  match unknown m with
  | [] => Ok b
  | us => let* u := i32 (records_size us) in i32 (b + u)
  end.

(** MessageLite::SerializeToString (called at include/distributions/io/protobuf.hpp:86-87): ByteSize bytes
    are set aside and filled by SerializeWithCachedSizesToArray; writing past them is undefined, fewer
    is a fatal error.  The check IsInitialized is a GOOGLE_DCHECK, not modelled. *)
Definition serialize_to_string (c : code) (m : message) : outcome (list Z) :=
  let* n := byte_size c m in
  let* l := write_stmts m (c_write_array c) in
  if Z.of_nat (length l) =? n then Ok l
  else if Z.of_nat (length l) <? n then Fail else UB.

(** operator== on messages, include/distributions/io/protobuf.hpp:81-89. *)
Definition message_eq (c : code) (x y : message) : outcome bool :=
  let* a := serialize_to_string c x in
  let* b := serialize_to_string c y in
  Ok (if list_eq_dec Z.eq_dec a b then true else false).

(** * Reading *)

(** set_x(v) / x_.Add(v) on member [i], e.g. schema.pb.cc:846-849, 2818-2820; a statement that takes a
    singular member for a repeated one does not exist in C++. *)
Definition store (rep : bool) (m : message) (i : nat) (v : Z) : outcome message :=
  let* s := vget (slots m) i in
  match rep, s with
  | false, One _ => let* ss := vset (slots m) i (One (Some v)) in Ok (Message ss (unknown m))
  | true, Many vs => let* ss := vset (slots m) i (Many (vs ++ [v])) in Ok (Message ss (unknown m))
  | _, _ => UB
  end.

(** Where control goes next: the top of the while loop, the label inside case [i], or out. *)
Inductive next := GoLoop | GoRead (i : nat) | GoDone.

(** The ExpectTag tests at the end of a case, e.g. schema.pb.cc:2830-2832. *)
Fixpoint try_expect (es : list (Z * nat)) (l : list Z) : option (nat * list Z) :=
  match es with
  | [] => None
  | (t, i) :: r => match expect_tag t l with Some l' => Some (i, l') | None => try_expect r l end
  end.
(** The end of a case, e.g. schema.pb.cc:2874-2876 *)
Definition after_case (p : pcase) (l : list Z) : next * list Z :=
  match try_expect (pc_expect p) l with
  | Some (i, l') => (GoRead i, l')
  | None => if pc_end p && (match l with [] => true | _ => false end) then (GoDone, l) else (GoLoop, l)
  end.

(** The answer of a reading function: false, or the message, where control goes, the bytes left. *)
Definition stepped := outcome (option (message * next * list Z)).

(** ReadRepeatedPrimitive after its first value: while the array has room ([k] more) and the tag comes
    again, further values, schema.pb.cc:2818-2820. *)
Fixpoint read_more (k : nat) (kd : kind) (tag : Z) (m : message) (i : nat) (l : list Z)
  : outcome (option (message * list Z)) :=
  match k with
  | O => Ok (Some (m, l))
  | S k' =>
      match expect_tag tag l with
      | None => Ok (Some (m, l))
      | Some l' =>
          match read_prim kd l' with
          | None => Ok None
          | Some (v, r) => let* m' := store true m i v in read_more k' kd tag m' i r
          end
      end
  end.

(** ReadPackedPrimitiveNoInline between its limits, schema.pb.cc:2824-2826: values until the bytes are
    used up.  [fuel] bounds the number of values by the number of bytes. *)
Fixpoint read_packed (fuel : nat) (kd : kind) (m : message) (i : nat) (l : list Z) : outcome (option message) :=
  match l with
  | [] => Ok (Some m)
  | _ => match fuel with
         | O => Ok None
         | S f => match read_prim kd l with
                  | None => Ok None
                  | Some (v, r) => let* m' := store true m i v in read_packed f kd m' i r
                  end
         end
  end.

Section Read.
  (** How much room the array of a RepeatedField has when it holds these values. *)
  Context (room : list Z -> nat).
  (** What is left of the recursion limit. *)
  Context (d : nat).
  Context (c : code).

  (** From the label in case [i] to the end of the case, e.g. schema.pb.cc:2817-2820, 2830-2832. *)
  Definition read_case (i : nat) (m : message) (l : list Z) : stepped :=
    let* p := vget (c_parse c) i in
    match read_prim (pc_kind p) l with
    | None => Ok None
    | Some (v, r) =>
        match pc_rep p with
        | None => let* m' := store false m (pc_slot p) v in
                  let (nx, r') := after_case p r in Ok (Some (m', nx, r'))
        | Some (tag, _) =>
            let* m' := store true m (pc_slot p) v in
            let* s := vget (slots m') (pc_slot p) in
            let* q := read_more (room (slot_values s)) (pc_kind p) tag m' (pc_slot p) r in
            match q with
            | None => Ok None
            | Some (m'', r') => let (nx, r'') := after_case p r' in Ok (Some (m'', nx, r''))
            end
        end
    end.

  (** The packed alternative of a case, e.g. schema.pb.cc:2821-2826. *)
  Definition read_case_packed (p : pcase) (kd : kind) (m : message) (l : list Z) : stepped :=
    match read_varint32 l with
    | None => Ok None
    | Some (len, r) =>
        let k := push_limit len r in
        let* q := read_packed k kd m (pc_slot p) (firstn k r) in
        match q with
        | None => Ok None
        | Some m' => let (nx, r') := after_case p (skipn k r) in Ok (Some (m', nx, r'))
        end
    end.

  (** handle_uninterpreted, e.g. schema.pb.cc:2879-2888.  An end-of-group tag makes the function return
      true without the end of the message reached, so that ParseFromString and ReadMessageNoVirtual,
      which ask ConsumedEntireMessage, return false. *)
  Definition uninterpreted (t : Z) (m : message) (l : list Z) : stepped :=
    if tag_wire_type t =? 4 then Ok None
    else match skip_field d t l with
         | None => Ok None
         | Some (u, r) => Ok (Some (Message (slots m) (unknown m ++ [u]), GoLoop, r))
         end.

  (** switch (GetTagFieldNumber(tag)) *)
  Fixpoint find_case (i : nat) (n : Z) (ps : list pcase) : option (nat * pcase) :=
    match ps with
    | [] => None
    | p :: t => if pc_num p =? n then Some (i, p) else find_case (S i) n t
    end.

  (** The top of the loop, e.g. schema.pb.cc:2780-2786 *)
  Definition read_top (m : message) (l : list Z) : stepped :=
    match read_tag l with
    | TEnd => Ok (Some (m, GoDone, l))
    | TBad => Ok None
    | TTag t r =>
        match find_case 0 (tag_number t) (c_parse c) with
        | None => uninterpreted t m r
        | Some (i, p) =>
            if tag_wire_type t =? pc_wt p then read_case i m r
            else match pc_rep p with
                 | Some (_, kd) => if tag_wire_type t =? 2 then read_case_packed p kd m r
                                   else uninterpreted t m r
                 | None => uninterpreted t m r
                 end
        end
    end.

  (** MergePartialFromCodedStream, e.g. schema.pb.cc:2776-2893, up to the end of the stream.  [fuel]
      bounds the number of passes by the number of bytes. *)
  Fixpoint merge_from_stream (fuel : nat) (nx : next) (m : message) (l : list Z) : outcome (option message) :=
    match nx with
    | GoDone => Ok (Some m)
    | _ =>
        match fuel with
        | O => Ok None
        | S f =>
            let* r := match nx with GoRead i => read_case i m l | _ => read_top m l end in
            match r with
            | None => Ok None
            | Some (m', nx', l') => merge_from_stream f nx' m' l'
            end
        end
    end.

  (** MessageLite::ParsePartialFromString: Clear, then all of the bytes. *)
  Definition parse_partial (l : list Z) : outcome (option message) :=
    merge_from_stream (S (length l)) GoLoop (ctor c) l.

  (** MessageLite::ParseFromString: false unless IsInitialized. *)
  Definition parse (l : list Z) : outcome (option message) :=
    let* r := parse_partial l in
    Ok (match r with
        | Some m => if is_initialized c m then Some m else None
        | None => None
        end).
End Read.

(** * Merging *)

(** x_.MergeFrom(from.x_), e.g. schema.pb.cc:3035 *)
Definition merge_rep (from m : message) (x : nat) : outcome message :=
  let* a := vget (slots m) x in
  let* b := vget (slots from) x in
  match a, b with
  | Many va, Many vb => let* ss := vset (slots m) x (Many (va ++ vb)) in Ok (Message ss (unknown m))
  | _, _ => UB
  end.
(** if (from.has_x()) set_x(from.x()), e.g. schema.pb.cc:3039-3041 *)
Definition merge_one (from m : message) (x : nat) : outcome message :=
  let* b := vget (slots from) x in
  match b with
  | One (Some v) => store false m x v
  | One None => Ok m
  | Many _ => UB
  end.
(** a list of such statements *)
Fixpoint merge_list (f : message -> nat -> outcome message) (m : message) (xs : list nat) : outcome message :=
  match xs with [] => Ok m | x :: t => let* m' := f m x in merge_list f m' t end.

(** MergeFrom, e.g. schema.pb.cc:3033-3047; the two messages are different objects (GOOGLE_CHECK_NE). *)
Definition merge_from (c : code) (from m : message) : outcome message :=
  let* a := merge_list (merge_rep from) m (c_merge_rep c) in
  let* b := if has_any c from then merge_list (merge_one from) a (c_merge_one c) else Ok a in
  Ok (Message (slots b) (unknown b ++ unknown from)).

(** CopyFrom, e.g. schema.pb.cc:3055-3059. *)
Definition copy_from (c : code) (from m : message) : outcome message := merge_from c from (clear c m).
