(** What a mixture model of rows must do, on plain lists: which rows each group holds.
    No reference to the model of the code. *)
From Coq Require Import List ZArith.
Import ListNotations.
Local Open Scope Z_scope.

(** Client calls: put a row into / take a row out of the group with global id [g]. *)
Inductive wop (W : Type) := WAdd (g : Z) (w : W) | WRem (g : Z) (w : W).
Arguments WAdd {W}. Arguments WRem {W}.

(** The live groups (global id and rows held) in the order of their creation, and the number of
    groups created so far. *)
Definition world (W : Type) : Type := list (Z * list W) * Z.

Inductive wstep {W : Type} : world W -> wop W -> world W -> Prop :=
| w_add_more pre g x xs post n w :
    wstep (pre ++ (g, x :: xs) :: post, n) (WAdd g w) (pre ++ (g, w :: x :: xs) :: post, n)
| w_add_first pre g post n w :                     (* a fresh empty group is created *)
    wstep (pre ++ (g, []) :: post, n) (WAdd g w) (pre ++ (g, [w]) :: post ++ [(n, [])], n + 1)
| w_rem_some pre g a w b post n : a ++ b <> [] ->
    wstep (pre ++ (g, a ++ w :: b) :: post, n) (WRem g w) (pre ++ (g, a ++ b) :: post, n)
| w_rem_last pre g w post n :                      (* the emptied group disappears *)
    wstep (pre ++ (g, [w]) :: post, n) (WRem g w) (pre ++ post, n).

Definition rows_in {W} (live : list (Z * list W)) : nat := length (concat (map snd live)).

(** [k] empty groups with ids 0 .. k-1. *)
Definition new_world {W} (k : nat) : world W := (map (fun i => (Z.of_nat i, [])) (seq 0 k), Z.of_nat k).

(** Histories of admissible rows with fewer than 2^31 rows and at most 2^32 ids at any time. *)
Definition world_ok {W} (ok : W -> Prop) (s : world W) : Prop :=
  List.Forall (fun g => List.Forall ok (snd g)) (fst s) /\ Z.of_nat (rows_in (fst s)) < 2 ^ 31 /\ snd s <= 2 ^ 32.
Inductive whistory {W : Type} (ok : W -> Prop) : world W -> list (wop W) -> world W -> Prop :=
| wh_nil s : whistory ok s [] s
| wh_cons s o s1 ops s2 : wstep s o s1 -> world_ok ok s1 -> whistory ok s1 ops s2 -> whistory ok s (o :: ops) s2.

(** A sampler working on rows numbered 0, 1, ...: seat row [i] (the group is chosen by [pick] from
    the scores) or unseat it. *)
Inductive cop (F : Type) := Seat (i : nat) (pick : list F -> nat) | Unseat (i : nat).
Arguments Seat {F}. Arguments Unseat {F}.
(** Plans for [n] rows: only unseated rows are seated, only seated rows are unseated, the choice is
    one of the groups scored. *)
Inductive plan {F : Type} (n : nat) : list nat -> list (cop F) -> list nat -> Prop :=
| pl_nil seated : plan n seated [] seated
| pl_seat seated i pick ops seated' : (i < n)%nat -> ~ In i seated ->
    (forall scores, scores <> [] -> (pick scores < length scores)%nat) ->
    plan n (i :: seated) ops seated' -> plan n seated (Seat i pick :: ops) seated'
| pl_unseat a i b ops seated' : plan n (a ++ b) ops seated' -> plan n (a ++ i :: b) (Unseat i :: ops) seated'.
Fixpoint seats {F} (ops : list (cop F)) : Z :=
  match ops with [] => 0 | Seat _ _ :: t => 1 + seats t | Unseat _ :: t => seats t end.
(** main.py's passes: seat every row, then several times unseat and reseat each in turn. *)
Definition first_pass {F} (n : nat) (pick : nat -> list F -> nat) : list (cop F) := map (fun i => Seat i (pick i)) (seq 0 n).
Definition gibbs_pass {F} (n : nat) (pick : nat -> list F -> nat) : list (cop F) :=
  flat_map (fun i => [Unseat i; Seat i (pick i)]) (seq 0 n).
