(** Sparse_ and SparseCounter, include/distributions/sparse.hpp.
    Keys are uint32_t in every use; here any [Z].  An unordered_map is a [gmap]. *)
From stdpp Require Import gmap.
From Verif.model Require Import Base.
Local Open Scope Z_scope.

Section Sparse.
  Context {V : Type} (dflt : V).   (** [Value()], the value-initialised element *)

  (** contains, sparse.hpp:52-54. *)
  Definition sp_contains (m : gmap Z V) (k : Z) : bool :=
    match m !! k with Some _ => true | None => false end.

  (** std::unordered_map::insert: keeps an existing entry; second component is "inserted" (called at sparse.hpp:57, 63). *)
  Definition um_insert (m : gmap Z V) (k : Z) (v : V) : gmap Z V * bool :=
    match m !! k with Some _ => (m, false) | None => (<[ k := v ]> m, true) end.

  (** add(key, value), sparse.hpp:62-65. *)
  Definition sp_add (dl : nat) (m : gmap Z V) (k : Z) (v : V) : outcome (gmap Z V) :=
    let '(m', inserted) := um_insert m k v in
    let* _ := dassert_at dl 1 inserted in Ok m'.

  (** add(key), sparse.hpp:56-60: returns a reference to the element; modelled by its value. *)
  Definition sp_add_default (dl : nat) (m : gmap Z V) (k : Z) : outcome (gmap Z V * V) :=
    let '(m', inserted) := um_insert m k dflt in
    let* _ := dassert_at dl 1 inserted in
    match m' !! k with Some v => Ok (m', v) | None => UB end.

  (** remove, sparse.hpp:67-70. *)
  Definition sp_remove (dl : nat) (m : gmap Z V) (k : Z) : outcome (gmap Z V) :=
    let* _ := dassert_at dl 1 (sp_contains m k) in Ok (delete k m).

  (** find then dereference, as in pop/set/get: end() is undefined to dereference (sparse.hpp:72-90). *)
  Definition sp_find (dl : nat) (m : gmap Z V) (k : Z) : outcome V :=
    match m !! k with
    | Some v => Ok v
    | None => let* _ := dassert_at dl 1 false in UB
    end.

  (** pop, sparse.hpp:72-78. *)
  Definition sp_pop (dl : nat) (m : gmap Z V) (k : Z) : outcome (gmap Z V * V) :=
    let* v := sp_find dl m k in Ok (delete k m, v).

  (** set, sparse.hpp:80-84. *)
  Definition sp_set (dl : nat) (m : gmap Z V) (k : Z) (v : V) : outcome (gmap Z V) :=
    let* _ := sp_find dl m k in Ok (<[ k := v ]> m).

  (** get, sparse.hpp:86-90 and 96-100. *)
  Definition sp_get (dl : nat) (m : gmap Z V) (k : Z) : outcome V := sp_find dl m k.

  (** get_or_add, sparse.hpp:92-94 (operator[]). *)
  Definition sp_get_or_add (m : gmap Z V) (k : Z) : gmap Z V * V :=
    match m !! k with Some v => (m, v) | None => (<[ k := dflt ]> m, dflt) end.

  (** size, clear, sparse.hpp:49-50. *)
  Definition sp_size (m : gmap Z V) : nat := size m.
  (** clear, sparse.hpp:50 *)
  Definition sp_clear (m : gmap Z V) : gmap Z V := ∅.
End Sparse.

(** SparseCounter<uint32_t, int32_t>, sparse.hpp:111-182 (the instance used by
    models/dpd.hpp).  [ctotal = None]: total_ not yet assigned (the class has no
    constructor); using it in arithmetic is undefined. *)
Record counter := mk_counter { cmap : gmap Z Z; ctotal : option Z }.

(** Default construction, sparse.hpp:111-116. *)
Definition ctr_new : counter := mk_counter ∅ None.

(** clear, sparse.hpp:123-126. *)
Definition ctr_clear (c : counter) : counter := mk_counter ∅ (Some 0).

(** [total_ += value] with int32_t arithmetic (sparse.hpp:132, 146). *)
Definition ctr_bump (t : option Z) (v : Z) : outcome (option Z) :=
  match t with
  | None => UB
  | Some t => let* t' := i32 (t + v) in Ok (Some t')
  end.

(** init_count, sparse.hpp:128-134. *)
Definition ctr_init_count (dl : nat) (c : counter) (k v : Z) : outcome counter :=
  if v =? 0 then Ok c
  else
    let '(m, success) := um_insert (cmap c) k v in
    let* _ := dassert_at dl 1 success in
    let* t := ctr_bump (ctotal c) v in
    Ok (mk_counter m t).

(** get_count, sparse.hpp:136-139. *)
Definition ctr_get_count (c : counter) (k : Z) : Z :=
  match cmap c !! k with None => 0 | Some v => v end.

(** get_total, sparse.hpp:141. *)
Definition ctr_get_total (c : counter) : outcome Z :=
  match ctotal c with None => UB | Some t => Ok t end.

(** add, sparse.hpp:143-159; returns the new counter and the returned value. *)
Definition ctr_add (c : counter) (k v : Z) : outcome (counter * Z) :=
  if v =? 0 then Ok (c, ctr_get_count c k)
  else
    let* t := ctr_bump (ctotal c) v in
    match cmap c !! k with
    | None => Ok (mk_counter (<[ k := v ]> (cmap c)) t, v)
    | Some old =>
        let* v' := i32 (old + v) in
        if v' =? 0 then Ok (mk_counter (delete k (cmap c)) t, v')
        else Ok (mk_counter (<[ k := v' ]> (cmap c)) t, v')
    end.

(** remove, sparse.hpp:161. *)
Definition ctr_remove (c : counter) (k : Z) : outcome (counter * Z) := ctr_add c k (-1).

(** merge, sparse.hpp:163-168; [order] is the sequence of entries in which the
    range-for visits [other.map_] (some permutation of its entries). *)
Fixpoint ctr_add_all (c : counter) (order : list (Z * Z)) : outcome counter :=
  match order with
  | [] => Ok c
  | (k, v) :: l => let* r := ctr_add c k v in ctr_add_all r.1 l
  end.
(** merge, sparse.hpp:163-168 *)
Definition ctr_merge (c other : counter) (order : list (Z * Z)) : outcome counter :=
  let* c1 := ctr_add_all c order in
  match ctotal other with
  | None => UB
  | Some t2 => let* t := ctr_bump (ctotal c1) t2 in Ok (mk_counter (cmap c1) t)
  end.

(** rename, sparse.hpp:170-178. *)
Definition ctr_rename (dl : nat) (c : counter) (old_key new_key : Z) : outcome counter :=
  match cmap c !! old_key with
  | None => Ok c
  | Some v =>
      let '(m, success) := um_insert (delete old_key (cmap c)) new_key v in
      let* _ := dassert_at dl 1 success in
      Ok (mk_counter m (ctotal c))
  end.
