(** Integer counters and finite maps as plain functions. *)
From Coq Require Import List ZArith.
Import ListNotations.
Local Open Scope Z_scope.

(** Calls on a counter: add any amount, add -1, init_count. *)
Inductive cop := CAdd (k n : Z) | CRemove (k : Z) | CInit (k n : Z).

Definition amount (o : cop) (k : Z) : Z :=
  match o with
  | CAdd k' n | CInit k' n => if k =? k' then n else 0
  | CRemove k' => if k =? k' then -1 else 0
  end.
Definition total_amount (o : cop) : Z :=
  match o with CAdd _ n | CInit _ n => n | CRemove _ => -1 end.
Definition op_key (o : cop) : Z :=
  match o with CAdd k _ | CInit k _ | CRemove k => k end.

(** Integer sum of everything a history did to key [k] / to the total. *)
Fixpoint sum_for (k : Z) (ops : list cop) : Z :=
  match ops with [] => 0 | o :: t => amount o k + sum_for k t end.
Fixpoint sum_all (ops : list cop) : Z :=
  match ops with [] => 0 | o :: t => total_amount o + sum_all t end.

Definition in_i32 (z : Z) : Prop := - 2 ^ 31 <= z < 2 ^ 31.

(** A history is legal when no running count or total leaves int32 and init_count
    only names keys whose count is zero at that point. *)
Definition legal_history (ops : list cop) : Prop :=
  forall pre o post, ops = pre ++ o :: post ->
    in_i32 (sum_for (op_key o) (pre ++ [o])) /\ in_i32 (sum_all (pre ++ [o])) /\
    match o with CInit k n => sum_for k pre = 0 /\ in_i32 n | CAdd _ n => in_i32 n | CRemove _ => True end.

(** Calls on a map from keys to values of any type. *)
Inductive mop (V : Type) :=
| MContains (k : Z) | MAdd (k : Z) (v : V) | MAddDefault (k : Z) | MRemove (k : Z)
| MPop (k : Z) | MSet (k : Z) (v : V) | MGet (k : Z) | MGetOrAdd (k : Z) | MClear.
Arguments MContains {V}. Arguments MAdd {V}. Arguments MAddDefault {V}. Arguments MRemove {V}.
Arguments MPop {V}. Arguments MSet {V}. Arguments MGet {V}. Arguments MGetOrAdd {V}. Arguments MClear {V}.

Inductive mres (V : Type) := RNone | RBool (b : bool) | RVal (v : V).
Arguments RNone {V}. Arguments RBool {V}. Arguments RVal {V}.

Definition put {V} (f : Z -> option V) (k : Z) (v : option V) : Z -> option V :=
  fun k' => if k' =? k then v else f k'.

(** Legal calls on a mathematical finite map. *)
Inductive mstep {V} (dflt : V) : (Z -> option V) -> mop V -> (Z -> option V) -> mres V -> Prop :=
| m_contains f k : mstep dflt f (MContains k) f
    (RBool (match f k with Some _ => true | None => false end))
| m_add f k v : f k = None -> mstep dflt f (MAdd k v) (put f k (Some v)) RNone
| m_add_default f k : f k = None ->
    mstep dflt f (MAddDefault k) (put f k (Some dflt)) (RVal dflt)
| m_remove f k v : f k = Some v -> mstep dflt f (MRemove k) (put f k None) RNone
| m_pop f k v : f k = Some v -> mstep dflt f (MPop k) (put f k None) (RVal v)
| m_set f k v v' : f k = Some v -> mstep dflt f (MSet k v') (put f k (Some v')) RNone
| m_get f k v : f k = Some v -> mstep dflt f (MGet k) f (RVal v)
| m_get_or_add_old f k v : f k = Some v -> mstep dflt f (MGetOrAdd k) f (RVal v)
| m_get_or_add_new f k : f k = None ->
    mstep dflt f (MGetOrAdd k) (put f k (Some dflt)) (RVal dflt)
| m_clear f : mstep dflt f MClear (fun _ => None) RNone.

Inductive msteps {V} (dflt : V) : (Z -> option V) -> list (mop V) -> (Z -> option V) -> list (mres V) -> Prop :=
| ms_nil f : msteps dflt f [] f []
| ms_cons f o f1 r ops f2 rs : mstep dflt f o f1 r -> msteps dflt f1 ops f2 rs ->
    msteps dflt f (o :: ops) f2 (r :: rs).

(** Sum of absolute amounts, a bound on every count and total along the way. *)
Fixpoint abs_all (ops : list cop) : Z :=
  match ops with [] => 0 | o :: t => Z.abs (total_amount o) + abs_all t end.
