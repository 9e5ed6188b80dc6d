(** Threads calling get_log_stirling1_row_exact, src/special.cc:55-84, one step per access to
    the shared cache or to the mutex.  The mutex is the one at line 55, the cache the static
    vector at line 56; both are shared, everything else is local to its thread. *)
From Coq Require Import Reals.
From Verif.model Require Import Base VectorMath Stirling.
Local Open Scope nat_scope.

(** The next action of a thread (src/special.cc:58-84). *)
Inductive pc :=
| AtLock               (* special.cc:76: acquire the mutex *)
| AtTest               (* special.cc:78: n >= cache.size() *)
| AtPush               (* special.cc:59-60: read the size, push_back an empty row *)
| AtResize (m : nat)   (* special.cc:62: row.resize(m + 1), m the size read *)
| AtFirst (m : nat)    (* special.cc:63 *)
| AtLast (m : nat)     (* special.cc:64, and the test of line 65 *)
| AtFill (m k : nat)   (* special.cc:68 or 69 *)
| AtCopy (k : nat)     (* special.cc:82-83: element k of memcpy *)
| AtUnlock             (* special.cc:84: destructor of the lock *)
| Done
| Thrown.              (* bad_alloc left the function; the lock's destructor has run *)

(** A thread: the argument n, the caller's buffer, the next action (src/special.cc:74). *)
Record thread := { t_n : nat; t_buf : list ext; t_pc : pc }.
(** src/special.cc:55-56 *)
Record world := { w_lock : option nat; w_cache : list (list ext); w_threads : list thread }.

(** What the scheduler and the allocator decide: the thread that runs, whether an
    allocation made by push_back (special.cc:60) and by resize (special.cc:62) succeeds. *)
Record event := { e_tid : nat; e_push_ok : bool; e_resize_ok : bool }.

(** Model only: set the next action (src/special.cc:58-84). *)
Definition goto (t : thread) (p : pc) : thread := {| t_n := t_n t; t_buf := t_buf t; t_pc := p |}.

(** row = cache[m], updated in place: special.cc:61-64 and 69 ([back()] is element m). *)
Definition put (cache : list (list ext)) (m k : nat) (v : ext) : outcome (list (list ext)) :=
  let* row := vget cache m in
  let* row := vset row k v in
  vset cache m row.

(** One step of thread [i]; a thread that waits for the mutex, or has ended, stays.
    Releasing a mutex one does not own is undefined (src/special.cc:58-84). *)
Definition tstep (i : nat) (e : event) (lock : option nat) (cache : list (list ext)) (t : thread)
  : outcome (option nat * list (list ext) * thread) :=
  let release := match lock with
    | Some j => if Nat.eqb i j then Ok None else UB
    | None => UB
    end in
  match t_pc t with
  | AtLock => match lock with
      | None => Ok (Some i, cache, goto t AtTest)
      | Some _ => Ok (lock, cache, t)
      end
  | AtTest => Ok (lock, cache, goto t (if length cache <=? t_n t then AtPush else AtCopy 0))
  | AtPush =>
      if e_push_ok e then Ok (lock, cache ++ [[]], goto t (AtResize (length cache)))
      else let* l := release in Ok (l, cache, goto t Thrown)
  | AtResize m =>
      if e_resize_ok e then
        let* c := vset cache m (repeat (Fin 0%R) (m + 1)) in
        Ok (lock, c, goto t (AtFirst m))
      else let* l := release in Ok (l, cache, goto t Thrown)
  | AtFirst m => let* c := put cache m 0 NInf in Ok (lock, c, goto t (AtLast m))
  | AtLast m =>
      let* c := put cache m m (Fin 0%R) in
      Ok (lock, c, goto t (if 1 <? m then AtFill m 1 else AtTest))
  | AtFill m k =>
      if k <? m then
        let* prev := vget cache (m - 1) in
        let* a := vget prev k in
        let* b := vget prev (k - 1) in
        let* c := put cache m k (log_sum_exp (eadd (elog (Fin (INR (m - 1)))) a) b) in
        Ok (lock, c, goto t (AtFill m (k + 1)))
      else Ok (lock, cache, goto t AtTest)
  | AtCopy k =>
      let* row := vget cache (t_n t) in
      if k <? length row then
        let* v := vget row k in
        let* buf := vset (t_buf t) k v in
        Ok (lock, cache, {| t_n := t_n t; t_buf := buf; t_pc := AtCopy (k + 1) |})
      else Ok (lock, cache, goto t AtUnlock)
  | AtUnlock => let* l := release in Ok (l, cache, goto t Done)
  | Done | Thrown => Ok (lock, cache, t)
  end.

(** An event naming no thread does nothing (src/special.cc:74-84). *)
Definition wstep (e : event) (w : world) : outcome world :=
  match nth_error (w_threads w) (e_tid e) with
  | None => Ok w
  | Some t =>
      let* (lc, t') := tstep (e_tid e) e (w_lock w) (w_cache w) t in
      Ok {| w_lock := fst lc; w_cache := snd lc; w_threads := upd (w_threads w) (e_tid e) t' |}
  end.

(** Model only: a schedule (src/special.cc:74-84). *)
Fixpoint wrun (es : list event) (w : world) : outcome world :=
  match es with
  | [] => Ok w
  | e :: es => let* w := wstep e w in wrun es w
  end.

(** Threads about to enter, each with its row number and result vector; the wrapper
    (special.cc:273-277) resizes the vector to n + 1. *)
Definition enter (calls : list (nat * list ext)) (cache : list (list ext)) : world :=
  {| w_lock := None; w_cache := cache;
     w_threads := map (fun c => {| t_n := fst c; t_buf := resize (snd c) (fst c + 1);
                                   t_pc := AtLock |}) calls |}.
