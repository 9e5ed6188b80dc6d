(** distributions/io/stream.py.  A file is the list of bytes it holds; a file object
    open for reading is the list of bytes not yet read.  Compression (open_compressed,
    lines 45-55) is not modelled: it is transparent to the functions below. *)
From Verif.model Require Import Base.
From Verif.spec Require Import StreamSpec.
Local Open Scope Z_scope.

(** file.read(n): at most n bytes (called at stream.py:148, 152). *)
Definition fd_read (n : Z) (fd : list Z) : list Z * list Z :=
  (firstn (Z.to_nat n) fd, skipn (Z.to_nat n) fd).

(** file.readline(): up to and including the first newline, or to end of file (called at stream.py:130). *)
Fixpoint fd_readline (fd : list Z) : list Z * list Z :=
  match fd with
  | [] => ([], [])
  | c :: t => if c =? newline then ([c], t)
              else let (l, r) := fd_readline t in (c :: l, r)
  end.

(** file.readline(n): the same, at most n bytes (called at stream.py:119). *)
Fixpoint fd_readline_max (n : nat) (fd : list Z) : list Z * list Z :=
  match n, fd with
  | O, _ => ([], fd)
  | _, [] => ([], [])
  | S m, c :: t => if c =? newline then ([c], t)
                   else let (l, r) := fd_readline_max m t in (c :: l, r)
  end.

(** str.rstrip(',\n'): drop trailing commas and newlines (called at stream.py:130). *)
Fixpoint lstrip (l : list Z) : list Z :=
  match l with
  | [] => []
  | c :: t => if (c =? comma) || (c =? newline) then lstrip t else l
  end.
(** stream.py:130 *)
Definition rstrip (l : list Z) : list Z := rev (lstrip (rev l)).

(** struct.pack('<I', n): struct.error outside the range of an unsigned 32-bit integer (called at stream.py:143). *)
Definition pack_u32 (n : Z) : outcome (list Z) :=
  if (0 <=? n) && (n <? 4294967296)
  then Ok [n mod 256; (n / 256) mod 256; (n / 65536) mod 256; (n / 16777216) mod 256]
  else Fail.

(** struct.unpack('<I', s)[0] of four bytes; struct.error otherwise (called at stream.py:151). *)
Definition unpack_u32 (s : list Z) : option Z :=
  match s with
  | [a; b; c; d] => Some (a + 256 * b + 65536 * c + 16777216 * d)
  | _ => None
  end.

(** protobuf_stream_write, stream.py:141-144; appends to the file. *)
Definition protobuf_stream_write (item f : list Z) : outcome (list Z) :=
  let* h := pack_u32 (Z.of_nat (length item)) in
  Ok ((f ++ h) ++ item).

(** protobuf_stream_read, stream.py:147-152, also protobuf_stream_load.next, 168-169. *)
Definition protobuf_stream_read (fd : list Z) : step (list Z) (list Z) :=
  let (size_str, fd1) := fd_read 4 fd in
  if Nat.ltb (length size_str) 4 then Halt
  else match unpack_u32 size_str with
       | Some size => let (item, fd2) := fd_read size fd1 in Yield item fd2
       | None => Raise
       end.

(** protobuf_stream_dump, stream.py:155-158, from the moment the file is open. *)
Fixpoint protobuf_writes (items : list (list Z)) (f : list Z) : outcome (list Z) :=
  match items with
  | [] => Ok f
  | x :: t => let* f1 := protobuf_stream_write x f in protobuf_writes t f1
  end.
(** protobuf_stream_dump, stream.py:155-158 *)
Definition protobuf_stream_dump (items : list (list Z)) : outcome (list Z) :=
  protobuf_writes items [].

Section Json.
Context {X : Type}.
Variable dump1 : X -> dumped.
(** simplejson.loads: None stands for JSONDecodeError. *)
Variable loads : list Z -> option X.

(** The loop of json_stream_dump, stream.py:77-79, and of json_costream_dump, 93-96;
    the boolean is false when an exception other than the one that ends the loop left it. *)
Fixpoint json_items (xs : list X) (f : list Z) : list Z * bool :=
  match xs with
  | [] => (f, true)
  | x :: t => let f1 := f ++ [comma; newline] in
              match dump1 x with
              | Whole s => json_items t (f1 ++ s)
              | Broke s => (f1 ++ s, false)
              end
  end.

(** json_stream_dump, stream.py:68-82: contents of the file when it is closed by the
    with statement, and whether the call returned normally. *)
Definition json_stream_dump (xs : list X) : list Z * bool :=
  let f := [lbracket] in
  match xs with
  | [] => (f ++ [newline; rbracket], true)
  | x :: t =>
      let f := f ++ [newline] in
      match dump1 x with
      | Broke s => (f ++ s, false)
      | Whole s =>
          match json_items t (f ++ s) with
          | (f, true) => (f ++ [newline; rbracket], true)
          | (f, false) => (f, false)
          end
      end
  end.

(** json_costream_dump, stream.py:85-99, as a state machine: the file, whether a first
    item was received, and whether the coroutine is still running. *)
Record costream := mk_costream { co_file : list Z; co_first : bool; co_open : bool }.

(** Up to the first yield, stream.py:86-90. *)
Definition costream_start : costream := mk_costream [lbracket] true true.

(** send(item), stream.py:90-96.  None: the coroutine had ended, StopIteration. *)
Definition costream_send (x : X) (c : costream) : option costream :=
  if co_open c then
    let f := co_file c ++ (if co_first c then [newline] else [comma; newline]) in
    match dump1 x with
    | Whole s => Some (mk_costream (f ++ s) false true)
    | Broke s => Some (mk_costream (f ++ s) false false)
    end
  else None.

(** close(), stream.py:97-99: GeneratorExit at the yield. *)
Definition costream_close (c : costream) : costream :=
  if co_open c then mk_costream (co_file c ++ [newline; rbracket]) (co_first c) false else c.

(** Client code: a sequence of send calls, stream.py:85-99 *)
Fixpoint costream_sends (xs : list X) (c : costream) : option costream :=
  match xs with
  | [] => Some c
  | x :: t => match costream_send x c with Some c1 => costream_sends t c1 | None => None end
  end.

(** json_stream_load.__init__, stream.py:117-124; None stands for IOError. *)
Definition json_stream_open (fd : list Z) : option (list Z) :=
  let (line, fd1) := fd_readline_max 2 fd in
  if list_eq_dec Z.eq_dec line [lbracket; newline] then Some fd1 else None.

(** json_stream_load.next, stream.py:129-135. *)
Definition json_stream_next (fd : list Z) : step (list Z) X :=
  let (raw, fd1) := fd_readline fd in
  let line := rstrip raw in
  if list_eq_dec Z.eq_dec line [rbracket] then Halt
  else match loads line with Some x => Yield x fd1 | None => Raise end.

End Json.
