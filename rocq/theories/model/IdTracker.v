(** MixtureIdTracker, include/distributions/mixture.hpp:460-521. *)
From stdpp Require Import gmap.
From Verif.model Require Import Base Packed.
Local Open Scope Z_scope.

(** Data members, mixture.hpp:518-520.  [Id] is uint32_t, held here as a [Z] in
    [0, 2^32); [gsize] is a size_t, taken as unbounded (its own wrap-around at 2^64
    is not modelled). *)
Record tracker := mk_tracker {
  p2g : list Z;
  g2p : gmap Z Z;
  gsize : Z }.

(** packed_size and global_size, mixture.hpp:514-515. *)
Definition packed_size (t : tracker) : Z := Z.of_nat (length (p2g t)).
(** global_size, mixture.hpp:515 *)
Definition global_size (t : tracker) : Z := gsize t.

(** add_group, mixture.hpp:472-477.  Both ids are truncated to uint32_t;
    unordered_map::insert does not overwrite an existing key. *)
Definition tracker_add_group (t : tracker) : tracker :=
  let packed := u32 (packed_size t) in
  let global := u32 (gsize t) in
  mk_tracker (packed_add (p2g t) global)
    (match g2p t !! global with
     | Some _ => g2p t
     | None => <[ global := packed ]> (g2p t)
     end)
    (gsize t + 1).

(** init, mixture.hpp:463-470. *)
Fixpoint tracker_add_groups (n : nat) (t : tracker) : tracker :=
  match n with O => t | S n' => tracker_add_groups n' (tracker_add_group t) end.
(** init, mixture.hpp:463-470 *)
Definition tracker_init (group_count : nat) : tracker :=
  tracker_add_groups group_count (mk_tracker [] ∅ 0).

(** remove_group, mixture.hpp:479-494. *)
Definition tracker_remove_group (dl : nat) (t : tracker) (packed : Z) : outcome tracker :=
  let* _ := dassert_at dl 1 (packed <? packed_size t) in
  let* global := vget (p2g t) (Z.to_nat packed) in
  let* _ := dassert_at dl 1 (global <? gsize t) in
  let g2p1 := delete global (g2p t) in
  let* p2g1 := packed_remove dl (p2g t) (Z.to_nat packed) in
  if packed =? Z.of_nat (length p2g1) then Ok (mk_tracker p2g1 g2p1 (gsize t))
  else
    let* global' := vget p2g1 (Z.to_nat packed) in
    let* _ := dassert_at dl 1 (global' <? gsize t) in
    match g2p1 !! global' with
    | None => let* _ := dassert_at dl 1 false in UB
    | Some _ => Ok (mk_tracker p2g1 (<[ global' := packed ]> g2p1) (gsize t))
    end.

(** packed_to_global, mixture.hpp:496-501. *)
Definition packed_to_global (dl : nat) (t : tracker) (packed : Z) : outcome Z :=
  let* _ := dassert_at dl 1 (packed <? packed_size t) in
  let* global := vget (p2g t) (Z.to_nat packed) in
  let* _ := dassert_at dl 1 (global <? gsize t) in
  Ok global.

(** global_to_packed, mixture.hpp:503-512. *)
Definition global_to_packed (dl : nat) (t : tracker) (global : Z) : outcome Z :=
  let* _ := dassert_at dl 1 (global <? gsize t) in
  match g2p t !! global with
  | None => let* _ := dassert_at dl 1 false in UB
  | Some packed =>
      let* _ := dassert_at dl 1 (packed <? packed_size t) in
      Ok packed
  end.
