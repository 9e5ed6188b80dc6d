(** MixtureSlaveGroups, the two mixture scorers and MixtureSlave:
    include/distributions/mixture.hpp:166-450.  A class template parameter is a record
    of functions; [dl] is DIST_DEBUG_LEVEL. *)
From Verif.model Require Import Base Packed Num VectorMath Component.

(** std::vector::resize(n) / resize(n, d) (as called by mixture.hpp:357). *)
Definition vec_resize {A} (d : A) (l : list A) (n : nat) : list A :=
  firstn n l ++ repeat d (n - length l).

(** A mixture value scorer (mixture.hpp:270-298 lists the methods). *)
Record vscorer (C : component) (F : Type) := mk_vscorer {
  vs_t : Type;
  vs_resize : nat -> shared_t C -> vs_t -> nat -> outcome vs_t;
  vs_add_group : nat -> shared_t C -> vs_t -> outcome vs_t;
  vs_remove_group : nat -> shared_t C -> vs_t -> nat -> outcome vs_t;
  vs_update_group : nat -> shared_t C -> vs_t -> nat -> group_t C -> outcome vs_t;
  vs_add_value : nat -> shared_t C -> vs_t -> nat -> group_t C -> value_t C -> outcome vs_t;
  vs_remove_value : nat -> shared_t C -> vs_t -> nat -> group_t C -> value_t C -> outcome vs_t;
  vs_update_all : nat -> shared_t C -> vs_t -> list (group_t C) -> outcome vs_t;
  vs_score_group : nat -> shared_t C -> vs_t -> list (group_t C) -> nat -> value_t C -> outcome F;
  vs_score : nat -> shared_t C -> vs_t -> list (group_t C) -> value_t C -> list F -> outcome (list F) }.
Arguments vs_t {C F}. Arguments vs_resize {C F}. Arguments vs_add_group {C F}.
Arguments vs_remove_group {C F}. Arguments vs_update_group {C F}. Arguments vs_add_value {C F}.
Arguments vs_remove_value {C F}. Arguments vs_update_all {C F}. Arguments vs_score_group {C F}.
Arguments vs_score {C F}.

Section Slave.
  Context {C : component} {F : Type} {N : Num F}.
  (** typename Model::Group of mixture.hpp:340-448 *)
  Notation G := (group_t C).
  (** typename Model::Shared of mixture.hpp:340-448 *)
  Notation Sh := (shared_t C).
  (** typename Model::Value of mixture.hpp:340-448 *)
  Notation V := (value_t C).

  (** MixtureSlaveGroups::groups(i), mixture.hpp:176-185 *)
  Definition sg_get (dl : nat) (gs : list G) (i : nat) : outcome G :=
    let* _ := dassert_at dl 1 (i <? length gs) in vget gs i.
  (** MixtureSlaveGroups::add_group, mixture.hpp:188-192 *)
  Definition sg_add_group (sh : Sh) (gs : list G) : list G := packed_add gs (c_init C sh).
  (** MixtureSlaveGroups::remove_group, mixture.hpp:195-199 *)
  Definition sg_remove_group (dl : nat) (gs : list G) (i : nat) : outcome (list G) := packed_remove dl gs i.
  (** MixtureSlaveGroups::add_value, mixture.hpp:201-207 *)
  Definition sg_add_value (dl : nat) (sh : Sh) (gs : list G) (i : nat) (v : V) : outcome (list G) :=
    let* g := sg_get dl gs i in
    let* g' := c_add C dl sh g v in
    vset gs i g'.
  (** MixtureSlaveGroups::remove_value, mixture.hpp:209-215 *)
  Definition sg_remove_value (dl : nat) (sh : Sh) (gs : list G) (i : nat) (v : V) : outcome (list G) :=
    let* g := sg_get dl gs i in
    let* g' := c_rem C dl sh g v in
    vset gs i g'.

  (** MixtureSlaveDataScorerMixin::score_data_grid, mixture.hpp:238-247, for a given score_data. *)
  Definition grid_scorer (score_data : Sh -> list G -> outcome F) (shareds : list Sh) (gs : list G) (out : list F)
    : outcome (list F) :=
    let* _ := dassert (length shareds =? length out) in
    vfor 0 (length out) (fun i o =>
      let* sh := vget shareds i in
      let* s := score_data sh gs in
      vset o i s) out.

  (** SmallMixtureSlaveDataScorer::score_data, mixture.hpp:258-267; [gscore] is Group::score_data. *)
  Fixpoint small_score_data_loop (gscore : Sh -> G -> outcome F) (sh : Sh) (gs : list G) (score : F) : outcome F :=
    match gs with
    | [] => Ok score
    | g :: gs' => let* s := gscore sh g in small_score_data_loop gscore sh gs' (nadd score s)
    end.
  (** SmallMixtureSlaveDataScorer::score_data, mixture.hpp:258-267 *)
  Definition small_score_data (gscore : Sh -> G -> outcome F) (sh : Sh) (gs : list G) : outcome F :=
    small_score_data_loop gscore sh gs (nof 0).

  (** SmallMixtureSlaveValueScorer, mixture.hpp:300-338, with the empty methods of its base class
      270-298; [gscore] is Group::score_value. *)
  Definition small_score_group (gscore : nat -> Sh -> G -> V -> outcome F) (dl : nat) (sh : Sh)
      (_ : unit) (gs : list G) (i : nat) (v : V) : outcome F :=
    let* _ := dassert_at dl 2 (i <? length gs) in
    let* g := vget gs i in
    gscore dl sh g v.
  (** score_value, mixture.hpp:321-335 *)
  Definition small_score (gscore : nat -> Sh -> G -> V -> outcome F) (dl : nat) (sh : Sh)
      (_ : unit) (gs : list G) (v : V) (accum : list F) : outcome (list F) :=
    let* _ := dassert_at dl 2 (length accum =? length gs) in
    vfor 0 (length gs) (vupdate (fun i x =>
      let* g := vget gs i in
      let* s := gscore dl sh g v in
      Ok (nadd x s))) accum.
  (** SmallMixtureSlaveValueScorer, mixture.hpp:300-338 *)
  Definition small_vscorer (gscore : nat -> Sh -> G -> V -> outcome F) : vscorer C F := {|
    vs_t := unit;
    vs_resize _ _ t _ := Ok t;
    vs_add_group _ _ t := Ok t;
    vs_remove_group _ _ t _ := Ok t;
    vs_update_group _ _ t _ _ := Ok t;
    vs_add_value _ _ t _ _ _ := Ok t;
    vs_remove_value _ _ t _ _ _ := Ok t;
    vs_update_all _ _ t _ := Ok t;
    vs_score_group := small_score_group gscore;
    vs_score := small_score gscore |}.

  Variable S : vscorer C F.
  Variable dl : nat.

  (** MixtureSlave, data members mixture.hpp:447-448 (the data scorer is stateless from outside). *)
  Record slave := mk_slave { sl_groups : list G; sl_vs : vs_t S }.

  (** init, mixture.hpp:354-359; the caller has filled groups() before. *)
  Definition slave_init (sh : Sh) (s : slave) : outcome slave :=
    let* t := vs_resize S dl sh (sl_vs s) (length (sl_groups s)) in
    let* t := vs_update_all S dl sh t (sl_groups s) in
    Ok (mk_slave (sl_groups s) t).

  (** add_group, mixture.hpp:361-368 *)
  Definition slave_add_group (sh : Sh) (s : slave) : outcome slave :=
    let groupid := length (sl_groups s) in
    let gs := sg_add_group sh (sl_groups s) in
    let* t := vs_add_group S dl sh (sl_vs s) in
    let* g := sg_get dl gs groupid in
    let* t := vs_update_group S dl sh t groupid g in
    Ok (mk_slave gs t).

  (** remove_group, mixture.hpp:370-375 *)
  Definition slave_remove_group (sh : Sh) (s : slave) (i : nat) : outcome slave :=
    let* gs := sg_remove_group dl (sl_groups s) i in
    let* t := vs_remove_group S dl sh (sl_vs s) i in
    Ok (mk_slave gs t).

  (** add_value, mixture.hpp:377-384 *)
  Definition slave_add_value (sh : Sh) (s : slave) (i : nat) (v : V) : outcome slave :=
    let* gs := sg_add_value dl sh (sl_groups s) i v in
    let* g := sg_get dl gs i in
    let* t := vs_add_value S dl sh (sl_vs s) i g v in
    Ok (mk_slave gs t).

  (** remove_value, mixture.hpp:386-398 *)
  Definition slave_remove_value (sh : Sh) (s : slave) (i : nat) (v : V) : outcome slave :=
    let* gs := sg_remove_value dl sh (sl_groups s) i v in
    let* g := sg_get dl gs i in
    let* t := vs_remove_value S dl sh (sl_vs s) i g v in
    Ok (mk_slave gs t).

  (** score_value_group, mixture.hpp:400-414 *)
  Definition slave_score_value_group (sh : Sh) (s : slave) (i : nat) (v : V) : outcome F :=
    let* _ := dassert_at dl 2 (i <? length (sl_groups s)) in
    vs_score_group S dl sh (sl_vs s) (sl_groups s) i v.

  (** score_value, mixture.hpp:416-425 *)
  Definition slave_score_value (sh : Sh) (s : slave) (v : V) (accum : list F) : outcome (list F) :=
    let* _ := dassert_at dl 2 (length accum =? length (sl_groups s)) in
    vs_score S dl sh (sl_vs s) (sl_groups s) v accum.
End Slave.
Arguments sl_groups {C F S}. Arguments sl_vs {C F S}. Arguments mk_slave {C F S}.
