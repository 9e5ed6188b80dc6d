(** Running histories of client calls on the sparse containers. *)
From stdpp Require Import gmap.
From Verif.model Require Import Base Sparse.
From Verif.spec Require Import SparseSpec.

(** One client call, sparse.hpp:123-178 *)
Definition crun1 (dl : nat) (c : counter) (o : cop) : outcome (counter * option Z) :=
  match o with
  | CAdd k n => let* r := ctr_add c k n in Ok (r.1, Some r.2)
  | CRemove k => let* r := ctr_remove c k in Ok (r.1, Some r.2)
  | CInit k n => let* r := ctr_init_count dl c k n in Ok (r, None)
  end.
(** A history of client calls, sparse.hpp:123-178 *)
Fixpoint crun (dl : nat) (c : counter) (ops : list cop) : outcome (counter * list (option Z)) :=
  match ops with
  | [] => Ok (c, [])
  | o :: t =>
      let* r := crun1 dl c o in
      let* r' := crun dl r.1 t in
      Ok (r'.1, r.2 :: r'.2)
  end.

(** One client call, sparse.hpp:50-94 *)
Definition mrun1 {V} (dflt : V) (dl : nat) (m : gmap Z V) (o : mop V) : outcome (gmap Z V * mres V) :=
  match o with
  | MContains k => Ok (m, RBool (sp_contains m k))
  | MAdd k v => let* m' := sp_add dl m k v in Ok (m', RNone)
  | MAddDefault k => let* r := sp_add_default dflt dl m k in Ok (r.1, RVal r.2)
  | MRemove k => let* m' := sp_remove dl m k in Ok (m', RNone)
  | MPop k => let* r := sp_pop dl m k in Ok (r.1, RVal r.2)
  | MSet k v => let* m' := sp_set dl m k v in Ok (m', RNone)
  | MGet k => let* v := sp_get dl m k in Ok (m, RVal v)
  | MGetOrAdd k => let r := sp_get_or_add dflt m k in Ok (r.1, RVal r.2)
  | MClear => Ok (sp_clear m, RNone)
  end.
(** A history of client calls, sparse.hpp:50-94 *)
Fixpoint mrun {V} (dflt : V) (dl : nat) (m : gmap Z V) (ops : list (mop V))
  : outcome (gmap Z V * list (mres V)) :=
  match ops with
  | [] => Ok (m, [])
  | o :: t =>
      let* r := mrun1 dflt dl m o in
      let* r' := mrun dflt dl r.1 t in
      Ok (r'.1, r.2 :: r'.2)
  end.
