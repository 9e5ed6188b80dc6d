(** What a reader of a record stream observes, and the file formats, independently of
    the code that writes them.  A file is the list of its bytes. *)
From Coq Require Import List ZArith.
Import ListNotations.
Local Open Scope Z_scope.

(** One call to a Python iterator's next(): a value and the new file position,
    StopIteration, or any other exception. *)
Inductive step (S X : Type) : Type :=
| Yield (x : X) (s : S)
| Halt
| Raise.
Arguments Yield {S X} x s.
Arguments Halt {S X}.
Arguments Raise {S X}.

Inductive ending := Stopped | Raised.

(** [drains next s xs e]: "for x in reader" started at [s] sees exactly [xs] and then
    ends normally ([Stopped]) or with an exception ([Raised]). *)
Inductive drains {S X} (next : S -> step S X) : S -> list X -> ending -> Prop :=
| dr_stop s : next s = Halt -> drains next s [] Stopped
| dr_raise s : next s = Raise -> drains next s [] Raised
| dr_item s x s' xs e : next s = Yield x s' -> drains next s' xs e -> drains next s (x :: xs) e.

Definition is_byte (b : Z) : Prop := 0 <= b < 256.

(** Four bytes, least significant first. *)
Definition le32 (n : Z) (h : list Z) : Prop :=
  exists a b c d, h = [a; b; c; d] /\ is_byte a /\ is_byte b /\ is_byte c /\ is_byte d /\
    n = a + 256 * b + 65536 * c + 16777216 * d.

(** [framed items f]: [f] is each record's length in four bytes followed by the record. *)
Inductive framed : list (list Z) -> list Z -> Prop :=
| fr_nil : framed [] []
| fr_cons x xs h f : le32 (Z.of_nat (length x)) h -> framed xs f -> framed (x :: xs) (h ++ x ++ f).

Definition newline : Z := 10.
Definition comma : Z := 44.
Definition lbracket : Z := 91.
Definition rbracket : Z := 93.

(** [json_lines ts f]: [f] is a '[' line, the texts [ts] one per line separated by
    commas, and a last line ']' without newline. *)
Definition json_lines (ts : list (list Z)) (f : list Z) : Prop :=
  match ts with
  | [] => f = [lbracket; newline; rbracket]
  | t :: rest => f = [lbracket; newline] ++ t ++ concat (map (fun u => [comma; newline] ++ u) rest)
                     ++ [newline; rbracket]
  end.

(** What simplejson.dump(item, f, separators=(',', ':'), ...) does for one item: it
    writes the whole text, or raises after writing some of it. *)
Inductive dumped := Whole (text : list Z) | Broke (part : list Z).

(** A text that survives stripping: its last character is neither a comma nor a newline. *)
Definition clean_end (t : list Z) : Prop :=
  exists l c, t = l ++ [c] /\ c <> comma /\ c <> newline.

(** A JSON text as simplejson writes it: on one line, not empty, not ending in a comma
    and not starting with ']'. *)
Definition one_line (t : list Z) : Prop :=
  ~ In newline t /\ clean_end t /\ (forall r, t <> rbracket :: r).

(** What the streams need of the JSON library: a text is on one line and parses back to
    the item, an interrupted text is on one line and does not start with ']', and the
    empty text does not parse.  [loads] returns None for an exception. *)
Section Codec.
Context {X : Type}.
Variable dump1 : X -> dumped.
Variable loads : list Z -> option X.

Definition codec : Prop :=
  (forall x t, dump1 x = Whole t -> one_line t /\ loads t = Some x) /\
  (forall x t, dump1 x = Broke t -> ~ In newline t /\ (forall r, t <> rbracket :: r)) /\
  loads [] = None.

(** [ts] are the texts of the items [xs], none of which is refused. *)
Definition writes (xs : list X) (ts : list (list Z)) : Prop :=
  Forall2 (fun x t => dump1 x = Whole t) xs ts.

End Codec.
