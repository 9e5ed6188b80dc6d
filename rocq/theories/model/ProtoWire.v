(** protobuf_dump and protobuf_load as calls on the generated message classes: which setter of
    schema.pb.h each statement calls on which member, and which getter is read into which field.  What the
    fields hold and what a load does with them is Proto.v.  [bits] is the bit pattern of a float as it is
    stored in a message, [unbits] reads it back.  Members are numbered in the order of schema.proto. *)
From Coq Require Import ZArith List.
Import ListNotations.
From Verif.model Require Import Base Num Component BB GP BNB NICH DD Sparse DPD NIW PitmanYor Proto Wire SchemaCode Schema.
From Verif.spec Require Import WireSpec.
Local Open Scope Z_scope.

(** set_x(v), e.g. schema.pb.h:2760-2763 *)
Definition set_member (i : nat) (v : Z) (m : message) : outcome message := store false m i v.
(** add_x(v), e.g. schema.pb.h:2808-2810 *)
Definition add_member (i : nat) (v : Z) (m : message) : outcome message := store true m i v.
(** for each v: add_x(v), e.g. dd.hpp:74-76 *)
Fixpoint add_members (i : nat) (vs : list Z) (m : message) : outcome message :=
  match vs with [] => Ok m | v :: t => let* m' := add_member i v m in add_members i t m' end.
(** x(), e.g. schema.pb.h:2757-2759; a member not set is 0, as SharedCtor and Clear leave it *)
Definition get_member (m : message) (i : nat) : outcome Z :=
  let* s := vget (slots m) i in
  match s with One (Some v) => Ok v | One None => Ok 0 | Many _ => UB end.
(** x_size() and x(0), x(1), ..., e.g. schema.pb.h:2796-2804 *)
Definition get_members (m : message) (i : nat) : outcome (list Z) :=
  let* s := vget (slots m) i in
  match s with Many vs => Ok vs | One _ => UB end.

Section Floats.
  Context {F : Type} (bits : F -> Z) (unbits : Z -> F).

  (** bb.hpp:64-68 *)
  Definition bb_shared_put (x : bb_shared_msg F) (m : message) : outcome message :=
    let* m := set_member 0 (bits (bsm_alpha x)) m in
    set_member 1 (bits (bsm_beta x)) m.
  (** bb.hpp:59-62 *)
  Definition bb_shared_get (m : message) : outcome (bb_shared_msg F) :=
    let* a := get_member m 0 in
    let* b := get_member m 1 in
    Ok (mk_bb_shared_msg (unbits a) (unbits b)).
  (** bb.hpp:89-93 *)
  Definition bb_put (x : bb_msg) (m : message) : outcome message :=
    let* m := set_member 0 (bm_heads x) m in
    set_member 1 (bm_tails x) m.
  (** bb.hpp:84-87 *)
  Definition bb_get (m : message) : outcome bb_msg :=
    let* h := get_member m 0 in
    let* t := get_member m 1 in
    Ok (mk_bb_msg h t).

  (** gp.hpp:69-73 *)
  Definition gp_shared_put (x : gp_shared_msg F) (m : message) : outcome message :=
    let* m := set_member 0 (bits (gsm_alpha x)) m in
    set_member 1 (bits (gsm_inv_beta x)) m.
  (** gp.hpp:64-67 *)
  Definition gp_shared_get (m : message) : outcome (gp_shared_msg F) :=
    let* a := get_member m 0 in
    let* b := get_member m 1 in
    Ok (mk_gp_shared_msg (unbits a) (unbits b)).
  (** gp.hpp:96-101 *)
  Definition gp_put (x : gp_msg F) (m : message) : outcome message :=
    let* m := set_member 0 (gm_count x) m in
    let* m := set_member 1 (gm_sum x) m in
    set_member 2 (bits (gm_log_prod x)) m.
  (** gp.hpp:90-94 *)
  Definition gp_get (m : message) : outcome (gp_msg F) :=
    let* n := get_member m 0 in
    let* s := get_member m 1 in
    let* p := get_member m 2 in
    Ok (mk_gp_msg n s (unbits p)).

  (** bnb.hpp:72-77 *)
  Definition bnb_shared_put (x : bnb_shared_msg F) (m : message) : outcome message :=
    let* m := set_member 0 (bits (nsm_alpha x)) m in
    let* m := set_member 1 (bits (nsm_beta x)) m in
    set_member 2 (nsm_r x) m.
  (** bnb.hpp:66-70 *)
  Definition bnb_shared_get (m : message) : outcome (bnb_shared_msg F) :=
    let* a := get_member m 0 in
    let* b := get_member m 1 in
    let* r := get_member m 2 in
    Ok (mk_bnb_shared_msg (unbits a) (unbits b) r).
  (** bnb.hpp:99-103 *)
  Definition bnb_put (x : bnb_msg) (m : message) : outcome message :=
    let* m := set_member 0 (nm_count x) m in
    set_member 1 (nm_sum x) m.
  (** bnb.hpp:94-97 *)
  Definition bnb_get (m : message) : outcome bnb_msg :=
    let* n := get_member m 0 in
    let* s := get_member m 1 in
    Ok (mk_bnb_msg n s).

  (** nich.hpp:79-85 *)
  Definition nich_shared_put (x : nich_shared_msg F) (m : message) : outcome message :=
    let* m := set_member 0 (bits (csm_mu x)) m in
    let* m := set_member 1 (bits (csm_kappa x)) m in
    let* m := set_member 2 (bits (csm_sigmasq x)) m in
    set_member 3 (bits (csm_nu x)) m.
  (** nich.hpp:72-77 *)
  Definition nich_shared_get (m : message) : outcome (nich_shared_msg F) :=
    let* u := get_member m 0 in
    let* k := get_member m 1 in
    let* s := get_member m 2 in
    let* n := get_member m 3 in
    Ok (mk_nich_shared_msg (unbits u) (unbits k) (unbits s) (unbits n)).
  (** nich.hpp:110-115 *)
  Definition nich_put (x : nich_msg F) (m : message) : outcome message :=
    let* m := set_member 0 (cm_count x) m in
    let* m := set_member 1 (bits (cm_mean x)) m in
    set_member 2 (bits (cm_ctv x)) m.
  (** nich.hpp:104-108 *)
  Definition nich_get (m : message) : outcome (nich_msg F) :=
    let* n := get_member m 0 in
    let* u := get_member m 1 in
    let* v := get_member m 2 in
    Ok (mk_nich_msg n (unbits u) (unbits v)).

  (** dd.hpp:70-76 *)
  Definition dd_shared_put (x : list F) (m : message) : outcome message :=
    add_members 0 (map bits x) (clear DirichletDiscrete_Shared_code m).
  (** dd.hpp:61-68 *)
  Definition dd_shared_get (m : message) : outcome (list F) :=
    let* l := get_members m 0 in Ok (map unbits l).
  (** dd.hpp:104-111 *)
  Definition dd_put (x : list Z) (m : message) : outcome message :=
    add_members 0 x (clear DirichletDiscrete_Group_code m).
  (** dd.hpp:94-102 *)
  Definition dd_get (m : message) : outcome (list Z) := get_members m 0.

  (** The loop of dpd.hpp:131-137: values, betas and counts in turn; [x] holds as many of each. *)
  Fixpoint dps_put_loop (vs : list Z) (bs : list F) (cs : list Z) (m : message) : outcome message :=
    match vs, bs, cs with
    | v :: vs', b :: bs', c :: cs' =>
        let* m := add_member 2 v m in
        let* m := add_member 3 (bits b) m in
        let* m := add_member 4 c m in
        dps_put_loop vs' bs' cs' m
    | _, _, _ => Ok m
    end.
  (** dpd.hpp:127-138 *)
  Definition dps_put (x : dps_msg F) (m : message) : outcome message :=
    let m := clear DirichletProcessDiscrete_Shared_code m in
    let* m := set_member 0 (bits (dm_gamma x)) m in
    let* m := set_member 1 (bits (dm_alpha x)) m in
    dps_put_loop (dm_values x) (dm_betas x) (dm_counts x) m.
  (** dpd.hpp:104-125 *)
  Definition dps_get (m : message) : outcome (dps_msg F) :=
    let* vs := get_members m 2 in
    let* bs := get_members m 3 in
    let* cs := get_members m 4 in
    let* g := get_member m 0 in
    let* a := get_member m 1 in
    Ok (mk_dps_msg (unbits g) (unbits a) vs (map unbits bs) cs).
  (** The loop of dpd.hpp:176-179 *)
  Fixpoint dpd_put_loop (ks vs : list Z) (m : message) : outcome message :=
    match ks, vs with
    | k :: ks', v :: vs' =>
        let* m := add_member 0 k m in
        let* m := add_member 1 v m in
        dpd_put_loop ks' vs' m
    | _, _ => Ok m
    end.
  (** dpd.hpp:171-180 *)
  Definition dpd_put (x : dpd_msg) (m : message) : outcome message :=
    dpd_put_loop (pm_keys x) (pm_values x) (clear DirichletProcessDiscrete_Group_code m).
  (** dpd.hpp:159-168 *)
  Definition dpd_get (m : message) : outcome dpd_msg :=
    let* ks := get_members m 0 in
    let* vs := get_members m 1 in
    Ok (mk_dpd_msg ks vs).

  (** clustering.hpp:68-72 *)
  Definition py_put (x : py_msg F) (m : message) : outcome message :=
    let* m := set_member 0 (bits (ym_alpha x)) m in
    set_member 1 (bits (ym_d x)) m.
  (** clustering.hpp:63-66 *)
  Definition py_get (m : message) : outcome (py_msg F) :=
    let* a := get_member m 0 in
    let* b := get_member m 1 in
    Ok (mk_py_msg (unbits a) (unbits b)).
  (** clustering.hpp:253-256 *)
  Definition le_put (x : Z) (m : message) : outcome message := set_member 0 x m.
  (** clustering.hpp:248-251 *)
  Definition le_get (m : message) : outcome Z := get_member m 0.
End Floats.

Section Wishart.
  Context {F : Set} (bits : F -> Z) (unbits : Z -> F).

  (** niw.hpp:137-156 *)
  Definition niw_shared_put (x : niw_shared_msg F) (m : message) : outcome message :=
    let m := clear NormalInverseWishart_Shared_code m in
    let* m := add_members 0 (map bits (wsm_mu x)) m in
    let* m := set_member 1 (bits (wsm_kappa x)) m in
    let* m := add_members 2 (map bits (wsm_psi x)) m in
    set_member 3 (bits (wsm_nu x)) m.
  (** niw.hpp:105-134 *)
  Definition niw_shared_get (m : message) : outcome (niw_shared_msg F) :=
    let* u := get_members m 0 in
    let* k := get_member m 1 in
    let* p := get_members m 2 in
    let* n := get_member m 3 in
    Ok (mk_niw_shared_msg (map unbits u) (unbits k) (map unbits p) (unbits n)).
  (** niw.hpp:219-234 *)
  Definition niw_put (x : niw_msg F) (m : message) : outcome message :=
    let m := clear NormalInverseWishart_Group_code m in
    let* m := set_member 0 (wm_count x) m in
    let* m := add_members 1 (map bits (wm_sum_x x)) m in
    add_members 2 (map bits (wm_sum_xxT x)) m.
  (** niw.hpp:193-216 *)
  Definition niw_get (m : message) : outcome (niw_msg F) :=
    let* n := get_member m 0 in
    let* s := get_members m 1 in
    let* t := get_members m 2 in
    Ok (mk_niw_msg n (map unbits s) (map unbits t)).
End Wishart.

(** Client code: protobuf_dump into a message object, then SerializeToString (as in io/protobuf.hpp:86). *)
Definition to_bytes {X} (c : code) (put : X -> message -> outcome message) (x : X) (m0 : message) : outcome (list Z) :=
  let* m := put x m0 in serialize_to_string c m.
(** Client code: ParseFromString, then protobuf_load; bytes that are refused are an error. *)
Definition from_bytes {X A} (room : list Z -> nat) (d : nat) (c : code) (get : message -> outcome X)
    (load : X -> outcome A) (l : list Z) : outcome A :=
  let* r := parse room d c l in
  match r with
  | None => Fail
  | Some m => let* x := get m in load x
  end.
