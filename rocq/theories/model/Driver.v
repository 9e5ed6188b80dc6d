(** MixtureDriver<Model, int32_t>, include/distributions/mixture.hpp:48-163. *)
From stdpp Require Import gmap.
From Verif.model Require Import Base.

(** Data members, mixture.hpp:148-150.  [empty_groupids_] is an unordered_set<size_t>. *)
Record driver := mk_driver {
  counts : list Z;
  empties : gset nat;
  sample_size : Z }.

(** _validate, mixture.hpp:152-162. *)
Definition driver_validate (dl : nat) (d : driver) : outcome unit :=
  let* _ := dassert_at dl 1 (negb (size (empties d) =? 0)) in
  dassert_at dl 2
    (forallb (fun i => eqb (nth i (counts d) 0 =? 0)%Z (bool_decide (i ∈ empties d)))
       (seq 0 (length (counts d)))).

(** The loop of init, mixture.hpp:64-69, from index [i] on. *)
Fixpoint driver_init_loop (i : nat) (cs : list Z) (es : gset nat) (n : Z)
  : outcome (gset nat * Z) :=
  match cs with
  | [] => Ok (es, n)
  | c :: cs' =>
      let* n' := i32 (n + c) in
      driver_init_loop (S i) cs' (if (c =? 0)%Z then es ∪ {[ i ]} else es) n'
  end.

(** init, mixture.hpp:59-71; [cs] is the content the client stored through
    counts() before calling init. *)
Definition driver_init (dl : nat) (cs : list Z) : outcome driver :=
  let* en := driver_init_loop 0 cs ∅ 0 in
  let d := mk_driver cs en.1 en.2 in
  let* _ := driver_validate dl d in
  Ok d.

(** add_value, mixture.hpp:73-92.  Returns the new state and the returned bool. *)
Definition driver_add (dl : nat) (d : driver) (groupid : nat) (count : Z)
  : outcome (driver * bool) :=
  let* _ := dassert_at dl 1 (negb (count =? 0)%Z) in
  let* _ := dassert_at dl 2 (groupid <? length (counts d)) in
  let* c := vget (counts d) groupid in
  let add_group := (c =? 0)%Z in
  let* c' := i32 (c + count) in
  let* cs := vset (counts d) groupid c' in
  let* n := i32 (sample_size d + count) in
  if add_group then
    let d' := mk_driver (cs ++ [0%Z])
                ((empties d ∖ {[ groupid ]}) ∪ {[ length cs ]}) n in
    let* _ := driver_validate dl d' in
    Ok (d', true)
  else Ok (mk_driver cs (empties d) n, false).

(** remove_value, mixture.hpp:94-122. *)
Definition driver_remove (dl : nat) (d : driver) (groupid : nat) (count : Z)
  : outcome (driver * bool) :=
  let* _ := dassert_at dl 1 (negb (count =? 0)%Z) in
  let* _ := dassert_at dl 2 (groupid <? length (counts d)) in
  let* c := vget (counts d) groupid in
  let* _ := dassert_at dl 2 (negb (c =? 0)%Z) in
  let* _ := dassert_at dl 2 (count <=? c)%Z in
  let* c' := i32 (c - count) in
  let* cs := vset (counts d) groupid c' in
  let* n := i32 (sample_size d - count) in
  if (c' =? 0)%Z then
    let group_count := length cs - 1 in
    let* back := vget cs group_count in
    let* cs2 := (if groupid =? group_count then Ok cs else vset cs groupid back) in
    let es := if groupid =? group_count then empties d
              else if (back =? 0)%Z
                   then (empties d ∖ {[ group_count ]}) ∪ {[ groupid ]}
                   else empties d in
    let d' := mk_driver (removelast cs2) es n in
    let* _ := driver_validate dl d' in
    Ok (d', true)
  else Ok (mk_driver cs (empties d) n, false).
