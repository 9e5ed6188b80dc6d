(** are_close and operator== on messages, include/distributions/io/protobuf.hpp:81-313.  Messages are the
    records of model/Proto.v.  Message types without an overload of are_close get the primary
    template (assert_close.hpp:42-45), that is the comparison of serialised bytes
    (protobuf.hpp:81-89), which for messages of integers is equality of all fields.
    The stream operators (protobuf.hpp:44-79) are not modelled. *)
From Coq Require Import Reals.
From Verif.model Require Import Base Num VectorMath Component BB GP BNB NICH DD Sparse DPD NIW PitmanYor Proto AssertClose.
From Verif.spec Require Import CloseSpec.
Local Open Scope Z_scope.

(** std::sort (protobuf.hpp:222-225, 246-247): insertion sort.  The order is total on the
    elements sorted, so the sorted sequence does not depend on the algorithm. *)
Fixpoint insert_by {A} (lt : A -> A -> bool) (a : A) (l : list A) : list A :=
  match l with
  | [] => [a]
  | b :: t => if lt b a then b :: insert_by lt a t else a :: l
  end.
(** std::sort (protobuf.hpp:222-225, 246-247) *)
Fixpoint sort_by {A} (lt : A -> A -> bool) (l : list A) : list A :=
  match l with
  | [] => []
  | a :: t => insert_by lt a (sort_by lt t)
  end.
(** operator< of std::pair (protobuf.hpp:222-225, 246-247) *)
Definition pair_lt {A B} (lta : A -> A -> bool) (ltb : B -> B -> bool) (x y : A * B) : bool :=
  (lta (fst x) (fst y) || (negb (lta (fst y) (fst x)) && ltb (snd x) (snd y)))%bool.

Section Close.
  Context {F : Set}.
  (** are_close, operator== and operator< on float (assert_close.hpp:47-50, protobuf.hpp:222-227) *)
  Variables (fclose feq flt : F -> F -> bool).

  (** are_close on repeated fields, protobuf.hpp:166-179; int i as index *)
  Definition rep_close (x y : list F) : bool :=
    if (length x =? length y)%nat then all2 fclose x y else false.
  (** operator== on repeated fields of scalars, protobuf.hpp:91-104 *)
  Definition rep_eq (x y : list Z) : bool :=
    if (length x =? length y)%nat then all2 Z.eqb x y else false.

  (** protobuf.hpp:149-155 *)
  Definition bb_shared_close (x y : bb_shared_msg F) : bool :=
    fclose (bsm_alpha x) (bsm_alpha y) && fclose (bsm_beta x) (bsm_beta y).
  (** protobuf.hpp:81-89 *)
  Definition bb_close (x y : bb_msg) : bool :=
    (bm_heads x =? bm_heads y) && (bm_tails x =? bm_tails y).
  (** protobuf.hpp:157-164 *)
  Definition bnb_shared_close (x y : bnb_shared_msg F) : bool :=
    fclose (nsm_alpha x) (nsm_alpha y) && fclose (nsm_beta x) (nsm_beta y) && (nsm_r x =? nsm_r y).
  (** protobuf.hpp:81-89 *)
  Definition bnb_close (x y : bnb_msg) : bool :=
    (nm_count x =? nm_count y) && (nm_sum x =? nm_sum y).
  (** protobuf.hpp:181-186; the message is its list of alphas *)
  Definition dd_shared_close (x y : list F) : bool := rep_close x y.
  (** protobuf.hpp:81-89; the message is its list of counts *)
  Definition dd_close (x y : list Z) : bool := rep_eq x y.
  (** protobuf.hpp:251-257 *)
  Definition gp_shared_close (x y : gp_shared_msg F) : bool :=
    fclose (gsm_alpha x) (gsm_alpha y) && fclose (gsm_inv_beta x) (gsm_inv_beta y).
  (** protobuf.hpp:259-266 *)
  Definition gp_close (x y : gp_msg F) : bool :=
    (gm_count x =? gm_count y) && (gm_sum x =? gm_sum y).
  (** protobuf.hpp:268-276 *)
  Definition nich_shared_close (x y : nich_shared_msg F) : bool :=
    fclose (csm_mu x) (csm_mu y) && fclose (csm_kappa x) (csm_kappa y) &&
    fclose (csm_sigmasq x) (csm_sigmasq y) && fclose (csm_nu x) (csm_nu y).
  (** protobuf.hpp:278-285 *)
  Definition nich_close (x y : nich_msg F) : bool :=
    (cm_count x =? cm_count y) && fclose (cm_mean x) (cm_mean y) && fclose (cm_ctv x) (cm_ctv y).
  (** protobuf.hpp:287-295 *)
  Definition niw_shared_close (x y : niw_shared_msg F) : bool :=
    rep_close (wsm_mu x) (wsm_mu y) && fclose (wsm_kappa x) (wsm_kappa y) &&
    rep_close (wsm_psi x) (wsm_psi y) && fclose (wsm_nu x) (wsm_nu y).
  (** protobuf.hpp:297-304 *)
  Definition niw_close (x y : niw_msg F) : bool :=
    (wm_count x =? wm_count y) && rep_close (wm_sum_x x) (wm_sum_x y) && rep_close (wm_sum_xxT x) (wm_sum_xxT y).

  (** Loop filling a vector of pairs from two repeated fields, protobuf.hpp:215-221, 240-245:
      reading beyond the second field is undefined. *)
  Fixpoint paired {A B} (keys : list A) (vals : list B) : outcome (list (A * B)) :=
    match keys, vals with
    | [], _ => Ok []
    | _ :: _, [] => UB
    | k :: ks, v :: vs => let* t := paired ks vs in Ok ((k, v) :: t)
    end.

  (** protobuf.hpp:188-228; the overload of are_close for vectors of pairs is resolved as in
      [are_close] of model/AssertClose.v *)
  Definition dps_close (x y : dps_msg F) : outcome bool :=
    if negb (fclose (dm_gamma x) (dm_gamma y)) || negb (fclose (dm_alpha x) (dm_alpha y)) then Ok false else
    if negb (length (dm_values x) =? length (dm_values y))%nat then Ok false else
    let* ax := paired (dm_values x) (dm_betas x) in
    let* ay := paired (dm_values y) (dm_betas y) in
    let* cx := paired (dm_values x) (dm_counts x) in
    let* cy := paired (dm_values y) (dm_counts y) in
    Ok (are_close fclose feq (SVec (SPair SInt SNum)) (sort_by (pair_lt Z.ltb flt) ax) (sort_by (pair_lt Z.ltb flt) ay) &&
        same feq (SVec (SPair SInt SInt)) (sort_by (pair_lt Z.ltb Z.ltb) cx) (sort_by (pair_lt Z.ltb Z.ltb) cy)).

  (** protobuf.hpp:230-249; values(i), a uint64_t, is stored in a uint32_t *)
  Definition dpd_close (x y : dpd_msg) : outcome bool :=
    if negb (length (pm_keys x) =? length (pm_keys y))%nat then Ok false else
    let* px := paired (pm_keys x) (map u32 (pm_values x)) in
    let* py := paired (pm_keys y) (map u32 (pm_values y)) in
    Ok (same feq (SVec (SPair SInt SInt)) (sort_by (pair_lt Z.ltb Z.ltb) px) (sort_by (pair_lt Z.ltb Z.ltb) py)).
End Close.

(** operator< on float without NaN (protobuf.hpp:222-225) *)
Definition ltR (x y : R) : bool := if Rlt_dec x y then true else false.
