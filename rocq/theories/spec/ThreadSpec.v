(** What threads sharing the cache may do at once, and fairness of a schedule. *)
From Verif.model Require Import Base Stirling StirlingThreads.

(** Does the next action of a thread touch the cache, and does it write it? *)
Definition touches (p : pc) : bool :=
  match p with AtLock | AtUnlock | Done | Thrown => false | _ => true end.
Definition writes (p : pc) : bool :=
  match p with AtPush | AtResize _ | AtFirst _ | AtLast _ | AtFill _ _ => true | _ => false end.

(** Two different threads whose next actions touch the cache, one of them writing. *)
Definition data_race (w : world) : Prop :=
  exists i j a b, i <> j /\ nth_error (w_threads w) i = Some a /\ nth_error (w_threads w) j = Some b /\
    touches (t_pc a) = true /\ touches (t_pc b) = true /\ writes (t_pc a) = true.

Definition ended (t : thread) : Prop := t_pc t = Done \/ t_pc t = Thrown.

(** The first n events of an infinite schedule, and a scheduler that starves nobody. *)
Definition upto (s : nat -> event) (n : nat) : list event := map s (seq 0 n).
Definition fair (s : nat -> event) (threads : nat) : Prop :=
  forall i n, (i < threads)%nat -> exists m, (n <= m)%nat /\ e_tid (s m) = i.
