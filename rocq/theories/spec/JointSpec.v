(** A mixture used together with the shared whose values it holds, on plain lists: [l] the values
    counted by the shared, [data] the values held by each group. *)
From Coq Require Import List ZArith Reals.
From Verif.spec Require Import GroupSpec SharedSpec SlaveSpec.
Import ListNotations.

Inductive jop := JShared (o : dop) | JMix (o : sop Z).

Definition uses (data : list (list Z)) (v : Z) : nat := count_occ Z.eq_dec (concat data) v.

(** The protocol: a value is added to the shared before it is added to the mixture and removed from
    the shared after it was removed from the mixture; so the mixture never holds a value more often
    than the shared counts it.  Only empty groups are removed. *)
Inductive jhistory : list Z -> list (list Z) -> list jop -> list Z -> list (list Z) -> Prop :=
| jh_nil l data : jhistory l data [] l data
| jh_add l data v u ops l' data' : v <> 4294967295%Z -> (0 < u <= 1)%R -> short (v :: l) ->
    jhistory (v :: l) data ops l' data' -> jhistory l data (JShared (DAdd v u) :: ops) l' data'
| jh_rem l1 v l2 data ops l' data' : (forall w, uses data w <= count_occ Z.eq_dec (l1 ++ l2) w) ->
    jhistory (l1 ++ l2) data ops l' data' -> jhistory (l1 ++ v :: l2) data (JShared (DRem v) :: ops) l' data'
| jh_mix l data o data1 ops l' data' : sstep data o data1 -> (forall w, uses data1 w <= count_occ Z.eq_dec l w) ->
    (forall i, o = SRemGroup i -> nth_error data i = Some []) ->
    jhistory l data1 ops l' data' -> jhistory l data (JMix o :: ops) l' data'.
