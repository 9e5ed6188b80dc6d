(** Collapsed Gibbs sampling as in examples/mixture/main.py:214-253 (compress_gibbs), for features of any
    of the library's models: the joint score of a state and the law of one move. *)
From Coq Require Import Permutation Reals.
From stdpp Require Import gmap.
From Verif.spec Require Import PartitionSpec SystemSpec GibbsSpec.
From Verif.model Require Import Base Num NumR Driver PitmanYor Component Slave BB GP BNB NICH DD Sparse DPD Random System.

Section Gibbs.
  Context {W : Type} (lg : R -> R) (dl : nat).
  #[local] Hint Extern 0 (Num R) => exact (NumR lg) : typeclass_instances.

  (** Group::score_value of the models whose function cannot fail (bb.hpp:132-139, gp.hpp:146-153,
      bnb.hpp:143-155, nich.hpp:181-188). *)
  Definition bb_gs (_ : nat) (sh : bb_shared R) g v : outcome R := Ok (bb_score_value sh g v).
  (** gp.hpp:146-153 *)
  Definition gp_gs (_ : nat) (sh : gp_shared R) g v : outcome R := Ok (gp_score_value sh g v).
  (** bnb.hpp:143-155 *)
  Definition bnb_gs (_ : nat) (sh : bnb_shared R) g v : outcome R := Ok (bnb_score_value sh g v).
  (** nich.hpp:181-188 *)
  Definition nich_gs (_ : nat) (sh : nich_shared R) g v : outcome R := Ok (nich_score_value sh g v).

  (** What a feature is made of: a model with its Shared, whether its mixture caches (FastMixture,
      mixture.hpp:276-401) or not (SmallMixture, mixture.hpp:177-273), and the part of a row it looks
      at (main.py:98, 104, 114). *)
  Inductive kind :=
  | KBB (fast : bool) (sh : bb_shared R) (pr : W -> bool)
  | KGP (fast : bool) (sh : gp_shared R) (pr : W -> Z)
  | KBNB (fast : bool) (sh : bnb_shared R) (pr : W -> Z)
  | KNICH (fast : bool) (sh : nich_shared R) (pr : W -> R)
  | KDD (fast : bool) (sh : dd_shared R) (pr : W -> Z)
  | KDPD (fast : bool) (sh : dpd_shared R) (pr : W -> Z).
  (** The feature made of them (main.py:75-76). *)
  Definition feature_of (k : kind) : feature W R :=
    match k with
    | KBB fast sh pr => mk_feature (BB R) (if fast then bb_vscorer else small_vscorer (C:=BB R) bb_gs) bb_gs sh pr
    | KGP fast sh pr => mk_feature (GP R) (if fast then gp_vscorer else small_vscorer (C:=GP R) gp_gs) gp_gs sh pr
    | KBNB fast sh pr => mk_feature (BNB R) (if fast then bnb_vscorer else small_vscorer (C:=BNB R) bnb_gs) bnb_gs sh pr
    | KNICH fast sh pr => mk_feature (NICH R) (if fast then nich_vscorer else small_vscorer (C:=NICH R) nich_gs) nich_gs sh pr
    | KDD fast sh pr => mk_feature (DD R) (if fast then dd_vscorer else small_vscorer (C:=DD R) dd_score_value) dd_score_value sh pr
    | KDPD fast sh pr => mk_feature (DPD R) (if fast then dpd_vscorer else small_vscorer (C:=DPD R) dpd_score_value) dpd_score_value sh pr
    end.
  (** Group::score_data of the feature's model returns [y] for the group (bb.hpp:141-152, gp.hpp:155-164,
      bnb.hpp:157-166, nich.hpp:190-202, dd.hpp:169-186, dpd.hpp:235-252; the last iterates over a hash
      map and must return [y] in every order). *)
  Definition data_score (k : kind) : group_t (ft_c (feature_of k)) -> R -> Prop :=
    match k with
    | KBB _ sh _ => fun g y => y = bb_score_data sh g
    | KGP _ sh _ => fun g y => y = gp_score_data sh g
    | KBNB _ sh _ => fun g y => y = bnb_score_data sh g
    | KNICH _ sh _ => fun g y => y = nich_score_data sh g
    | KDD _ sh _ => fun g y => dd_score_data sh g = Ok y
    | KDPD _ sh _ => fun g y => forall order, Permutation order (map_to_list (cmap g)) -> dpd_score_data dl sh g order = Ok y
    end.

  (** The joint score of a state: PitmanYor::score_counts of the group sizes (clustering.cc:152-183) plus
      score_data of every group of every feature, as the score_data loops of mixture.hpp:258-265 and of
      the driver, mixture.hpp:143-145, add them up.  [ks] says what the features are. *)
  Definition joint (m : py R) (ks : list kind) (s : sys W R) (J : R) : Prop :=
    exists ys, List.Forall2 (fun (kx : kind * fstate W R) y =>
        exists t zs, snd kx = mk_fstate (feature_of (fst kx)) t /\
          List.Forall2 (data_score (fst kx)) (sl_groups t) zs /\ y = rsum zs) (combine ks (sy_feats s)) ys /\
      length ks = length (sy_feats s) /\
      J = (py_score_counts m (counts (cdriver (sy_py s))) + rsum ys)%R.

  (** One Gibbs move of row [i], main.py:236-244: take it out, score it against every group, draw a group
      with the probabilities scores_to_probs gives (random.hpp:354-358, as sample_discrete_log does), put
      it back.  [pr] is the probability that the result clusters the rows as [a']: the sum of the
      probabilities of the positions [hits] that lead there. *)
  Definition move_prob (m : py R) (data : list W) (c : client W R) (i : nat) (a' : gmap nat Z) (pr : R) : Prop :=
    exists c0 w sc ps hits, client_run1 dl m data c (Unseat i) = Ok c0 /\ nth_error data i = Some w /\
      sys_score_value dl m (cl_sys c0) w (length (counts (cdriver (sy_py (cl_sys c0))))) = Ok sc /\
      scores_to_probs sc = Ok ps /\ List.NoDup hits /\
      (forall p, In p hits <-> (p < length sc)%nat /\
         exists c1, client_run1 dl m data c0 (Seat i (fun _ => p)) = Ok c1 /\ same_clusters (cl_assign c1) a') /\
      pr = rsum (map (fun p => nth p ps 0%R) hits).

  (** Model only: what the sampler of examples/mixture/main.py:189-345 can reach.  [k] empty groups are
      set up (main.py:81-95), then rows are seated and unseated in any order, with any choices; [room] is
      the number of group ids left unused. *)
  Definition reached (m : py R) (ks : list kind) (data : list W) (room : Z) (c : client W R) : Prop :=
    exists old feats k s0 ops seated, (1 <= k)%nat /\ map fs_f feats = map feature_of ks /\
      sys_init dl m old feats k = Ok s0 /\ plan (length data) [] ops seated /\
      (Z.of_nat k + seats ops + room <= 2 ^ 32)%Z /\ client_run dl m data (mk_client s0 ∅) ops = Ok c.
End Gibbs.
Arguments kind : clear implicits.
