(** Client code that coordinates a clustering driver, one mixture per feature and an id tracker:
    examples/mixture/main.py:72-123 (class ImageModel.Mixture), for any list of features instead
    of the two NormalInverseChiSq ones, as in doc/overview.rst:185-204.  Group ids are translated
    by the tracker as in main.py:238, 244. *)
From stdpp Require Import gmap.
From Verif.spec Require Import SystemSpec.
From Verif.model Require Import Base Num Driver PitmanYor IdTracker Component Slave.

(** A feature: a model (its groups and Group::score_value), a value scorer for its mixture, a
    Shared, and the part of a row it looks at (main.py:98, 104, 114: "x, y = xy"). *)
Record feature (W F : Type) := mk_feature {
  ft_c : component;
  ft_vs : vscorer ft_c F;
  ft_score : nat -> shared_t ft_c -> group_t ft_c -> value_t ft_c -> outcome F;
  ft_sh : shared_t ft_c;
  ft_val : W -> value_t ft_c }.
Arguments ft_c {W F}. Arguments ft_vs {W F}. Arguments ft_score {W F}. Arguments ft_sh {W F}. Arguments ft_val {W F}.
Arguments mk_feature {W F}.
(** A feature with its mixture (main.py:75-76). *)
Record fstate (W F : Type) := mk_fstate { fs_f : feature W F; fs_s : slave (ft_vs fs_f) }.
Arguments fs_f {W F}. Arguments fs_s {W F}. Arguments mk_fstate {W F}.

Section System.
  Context {W F : Type} {N : Num F}.
  Variable dl : nat.
  (** main.py:75-76 *)
  Notation fs := (fstate W F).

  (** main.py:73-77 *)
  Record sys := mk_sys { sy_py : cached F; sy_feats : list fs; sy_track : tracker }.

  (** Model only: the same call on every feature, as main.py:99-123 does for its two. *)
  Fixpoint each (f : fs -> outcome fs) (l : list fs) : outcome (list fs) :=
    match l with
    | [] => Ok []
    | x :: l' => let* x' := f x in let* r := each f l' in Ok (x' :: r)
    end.
  (** One call on the mixture of a feature (main.py:99-123). *)
  Definition on_slave (k : forall f : feature W F, slave (ft_vs f) -> outcome (slave (ft_vs f))) (x : fs) : outcome fs :=
    let* s := k (fs_f x) (fs_s x) in Ok (mk_fstate (fs_f x) s).

  (** init, main.py:82-95, with [k] = empty_group_count.  The k groups of a feature are put in by
      append (doc/overview.rst:134-135), not by add_group on a mixture that was not initialised;
      [x] is the feature with whatever its mixture held before. *)
  Definition feat_init (k : nat) (x : fs) : outcome fs :=
    on_slave (fun f s => slave_init (ft_vs f) dl (ft_sh f) (mk_slave (repeat (c_init (ft_c f) (ft_sh f)) k) (sl_vs s))) x.
  (** init, main.py:82-95 *)
  Definition sys_init (m : py F) (old : list F) (feats : list fs) (k : nat) : outcome sys :=
    let* _ := dassert (1 <=? k)%nat in
    let* c := py_init dl m old (repeat 0%Z k) in
    let* fs' := each (feat_init k) feats in
    Ok (mk_sys c fs' (tracker_init k)).
  (** init exactly as main.py:89-95: clear, k calls of add_group, init. *)
  Fixpoint feat_add_groups (k : nat) (f : feature W F) (s : slave (ft_vs f)) : outcome (slave (ft_vs f)) :=
    match k with
    | O => Ok s
    | S k' => let* s' := slave_add_group (ft_vs f) dl (ft_sh f) s in feat_add_groups k' f s'
    end.
  (** main.py:89-93 *)
  Definition feat_init_main (k : nat) (x : fs) : outcome fs :=
    on_slave (fun f s => let* s' := feat_add_groups k f (mk_slave [] (sl_vs s)) in slave_init (ft_vs f) dl (ft_sh f) s') x.
  (** init, main.py:82-95 *)
  Definition sys_init_main (m : py F) (old : list F) (feats : list fs) (k : nat) : outcome sys :=
    let* _ := dassert (1 <=? k)%nat in
    let* c := py_init dl m old (repeat 0%Z k) in
    let* fs' := each (feat_init_main k) feats in
    Ok (mk_sys c fs' (tracker_init k)).

  (** main.py:106-107 *)
  Definition feat_add_value (p : nat) (w : W) : fs -> outcome fs :=
    on_slave (fun f s => slave_add_value (ft_vs f) dl (ft_sh f) s p (ft_val f w)).
  (** main.py:118-119 *)
  Definition feat_remove_value (p : nat) (w : W) : fs -> outcome fs :=
    on_slave (fun f s => slave_remove_value (ft_vs f) dl (ft_sh f) s p (ft_val f w)).
  (** main.py:108-110 *)
  Definition feat_add_group : fs -> outcome fs :=
    on_slave (fun f s => slave_add_group (ft_vs f) dl (ft_sh f) s).
  (** main.py:120-122 *)
  Definition feat_remove_group (p : nat) : fs -> outcome fs :=
    on_slave (fun f s => slave_remove_group (ft_vs f) dl (ft_sh f) s p).

  (** add_value, main.py:103-111; [p] is a packed id. *)
  Definition sys_add_value (m : py F) (s : sys) (p : nat) (w : W) : outcome sys :=
    let* r := py_add dl m (sy_py s) p 1 in
    let* fs1 := each (feat_add_value p w) (sy_feats s) in
    if r.2 then
      let* fs2 := each feat_add_group fs1 in
      Ok (mk_sys r.1 fs2 (tracker_add_group (sy_track s)))
    else Ok (mk_sys r.1 fs1 (sy_track s)).

  (** remove_value, main.py:113-123. *)
  Definition sys_remove_value (m : py F) (s : sys) (p : nat) (w : W) : outcome sys :=
    let* r := py_remove dl m (sy_py s) p 1 in
    let* fs1 := each (feat_remove_value p w) (sy_feats s) in
    if r.2 then
      let* fs2 := each (feat_remove_group p) fs1 in
      let* t := tracker_remove_group dl (sy_track s) (Z.of_nat p) in
      Ok (mk_sys r.1 fs2 t)
    else Ok (mk_sys r.1 fs1 (sy_track s)).

  (** remove_value as printed in doc/overview.rst:197-202: the mixtures' add_value is called
      where the row is to be removed (the tracker is as in main.py). *)
  Definition sys_remove_value_overview (m : py F) (s : sys) (p : nat) (w : W) : outcome sys :=
    let* r := py_remove dl m (sy_py s) p 1 in
    let* fs1 := each (feat_add_value p w) (sy_feats s) in
    if r.2 then
      let* fs2 := each (feat_remove_group p) fs1 in
      let* t := tracker_remove_group dl (sy_track s) (Z.of_nat p) in
      Ok (mk_sys r.1 fs2 t)
    else Ok (mk_sys r.1 fs1 (sy_track s)).

  (** score_value, main.py:97-101; [out_size] is scores.size(). *)
  Fixpoint feats_score (l : list fs) (w : W) (scores : list F) : outcome (list F) :=
    match l with
    | [] => Ok scores
    | x :: l' =>
        let* sc := slave_score_value (ft_vs (fs_f x)) dl (ft_sh (fs_f x)) (fs_s x) (ft_val (fs_f x) w) scores in
        feats_score l' w sc
    end.
  (** score_value, main.py:97-101 *)
  Definition sys_score_value (m : py F) (s : sys) (w : W) (out_size : nat) : outcome (list F) :=
    let* sc := py_score_value dl m (sy_py s) out_size in
    feats_score (sy_feats s) w sc.

  (** Client code: calls named by global group id (main.py:103-123). *)
  Definition sys_run1 (m : py F) (s : sys) (o : wop W) : outcome sys :=
    match o with
    | WAdd g w => let* p := global_to_packed dl (sy_track s) g in sys_add_value m s (Z.to_nat p) w
    | WRem g w => let* p := global_to_packed dl (sy_track s) g in sys_remove_value m s (Z.to_nat p) w
    end.
  (** A history of client calls, main.py:103-123 *)
  Fixpoint sys_run (m : py F) (s : sys) (ops : list (wop W)) : outcome sys :=
    match ops with
    | [] => Ok s
    | o :: ops' => let* s' := sys_run1 m s o in sys_run m s' ops'
    end.

  (** The four programs main.py:189-345 (compress_sequential, _gibbs, _seq_gibbs, _annealing) are
      sequences of two steps on a fixed data set: seat row [i] in a group chosen from its scores
      (main.py:227-232, 239-244, 267-270, 333-336; [pick] stands for sample_discrete_log, which may
      depend on the scores and on the random state) and unseat row [i] (237-238 and 338-339).  The
      prior-only scoring of 228 is not distinguished: [pick] may ignore its argument. *)
  Record client := mk_client { cl_sys : sys; cl_assign : gmap nat Z }.
  (** main.py:239-244 and the other three places named above *)
  Definition client_seat (m : py F) (c : client) (i : nat) (w : W) (pick : list F -> nat) : outcome client :=
    let* sc := sys_score_value m (cl_sys c) w (length (counts (cdriver (sy_py (cl_sys c))))) in
    let p := pick sc in
    let* s := sys_add_value m (cl_sys c) p w in
    let* g := packed_to_global dl (sy_track s) (Z.of_nat p) in
    Ok (mk_client s (<[i := g]> (cl_assign c))).
  (** assignments[i] raises KeyError when [i] is absent.  237 reads the entry, which 244 then
      overwrites; 338 pops it (main.py:237-238, 338-339). *)
  Definition client_unseat (m : py F) (c : client) (i : nat) (w : W) : outcome client :=
    match cl_assign c !! i with
    | None => Fail
    | Some g =>
        let* p := global_to_packed dl (sy_track (cl_sys c)) g in
        let* s := sys_remove_value m (cl_sys c) (Z.to_nat p) w in
        Ok (mk_client s (delete i (cl_assign c)))
    end.
  (** One step of main.py:189-345 *)
  Definition client_run1 (m : py F) (data : list W) (c : client) (o : cop F) : outcome client :=
    match o with
    | Seat i pick => let* w := vget data i in client_seat m c i w pick
    | Unseat i => let* w := vget data i in client_unseat m c i w
    end.
  (** A sequence of steps, main.py:189-345 *)
  Fixpoint client_run (m : py F) (data : list W) (c : client) (ops : list (cop F)) : outcome client :=
    match ops with
    | [] => Ok c
    | o :: ops' => let* c' := client_run1 m data c o in client_run m data c' ops'
    end.
End System.
Arguments client : clear implicits.
Arguments mk_client {W F}. Arguments cl_sys {W F}. Arguments cl_assign {W F}.
Arguments sys : clear implicits.
Arguments mk_sys {W F}. Arguments sy_py {W F}. Arguments sy_feats {W F}. Arguments sy_track {W F}.
