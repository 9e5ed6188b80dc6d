(** Two programs with the same outcome: both fail, both are undefined, or both end with
    related results. *)
From Verif.model Require Import Base.

Definition agrees {A B : Type} (R : A -> B -> Prop) (x : outcome A) (y : outcome B) : Prop :=
  match x, y with
  | Ok a, Ok b => R a b
  | Fail, Fail => True
  | UB, UB => True
  | _, _ => False
  end.

(** [r] is [accum] with [score i] added to entry [i], for every i. *)
Definition added {F : Type} (add : F -> F -> F) (accum r : list F) (score : nat -> outcome F) : Prop :=
  length r = length accum /\
  forall i x, nth_error accum i = Some x -> exists s, score i = Ok s /\ nth_error r i = Some (add x s).

(** The calls of a mixture: add a group, remove group i, add / remove value v in group i. *)
Inductive sop (V : Type) :=
| SAddGroup
| SRemGroup (i : nat)
| SAdd (i : nat) (v : V)
| SRem (i : nat) (v : V).
Arguments SAddGroup {V}. Arguments SRemGroup {V}. Arguments SAdd {V}. Arguments SRem {V}.

(** What they do to the data held by the groups.  Removing group i moves the last group into its
    place. *)
Inductive taken_out {A : Type} : nat -> list A -> A -> list A -> Prop :=
| to_last l a : taken_out (length l) (l ++ [a]) a l
| to_inner l1 a l2 z : taken_out (length l1) (l1 ++ a :: l2 ++ [z]) a (l1 ++ z :: l2).
Inductive sstep {V : Type} : list (list V) -> sop V -> list (list V) -> Prop :=
| ss_addg d : sstep d SAddGroup (d ++ [[]])
| ss_remg i d xs d' : taken_out i d xs d' -> sstep d (SRemGroup i) d'
| ss_add d1 xs d2 v : sstep (d1 ++ xs :: d2) (SAdd (length d1) v) (d1 ++ (v :: xs) :: d2)
| ss_rem d1 a v b d2 : sstep (d1 ++ (a ++ v :: b) :: d2) (SRem (length d1) v) (d1 ++ (a ++ b) :: d2).
(** Histories all of whose states satisfy [fits]. *)
Inductive shistory {V : Type} (fits : list (list V) -> Prop) : list (list V) -> list (sop V) -> list (list V) -> Prop :=
| sh_nil d : shistory fits d [] d
| sh_cons d o d1 ops d2 : sstep d o d1 -> fits d1 -> shistory fits d1 ops d2 -> shistory fits d (o :: ops) d2.
