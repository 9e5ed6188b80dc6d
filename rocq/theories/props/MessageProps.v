(** Property C79: comparing messages. *)
From Coq Require Import Reals Lra Permutation.
From Verif.model Require Import Base Num VectorMath Component BB GP BNB NICH DD Sparse DPD NIW PitmanYor Proto AssertClose MessageClose.
From Verif.spec Require Import CloseSpec MessageSpec.
From Verif.proof Require Import BaseProof CloseProof.
From stdpp Require Import sorting.
From Verif.proof Require Import MessageProof.
Local Open Scope Z_scope.

(** Messages without keyed entries: integers equal, reals near, lists entry by entry.
    log_prod of a GammaPoisson group is not compared (protobuf.hpp:264 says so). *)
Theorem C79_plain_messages :
  (forall x y : bb_shared_msg R, bb_shared_close closeR x y = true <->
     near (bsm_alpha x) (bsm_alpha y) /\ near (bsm_beta x) (bsm_beta y)) /\
  (forall x y : bb_msg, bb_close x y = true <-> x = y) /\
  (forall x y : bnb_shared_msg R, bnb_shared_close closeR x y = true <->
     near (nsm_alpha x) (nsm_alpha y) /\ near (nsm_beta x) (nsm_beta y) /\ nsm_r x = nsm_r y) /\
  (forall x y : bnb_msg, bnb_close x y = true <-> x = y) /\
  (forall x y : list R, dd_shared_close closeR x y = true <-> near_all x y) /\
  (forall x y : list Z, dd_close x y = true <-> x = y) /\
  (forall x y : gp_shared_msg R, gp_shared_close closeR x y = true <->
     near (gsm_alpha x) (gsm_alpha y) /\ near (gsm_inv_beta x) (gsm_inv_beta y)) /\
  (forall x y : gp_msg R, gp_close x y = true <-> gm_count x = gm_count y /\ gm_sum x = gm_sum y) /\
  (forall x y : nich_shared_msg R, nich_shared_close closeR x y = true <->
     near (csm_mu x) (csm_mu y) /\ near (csm_kappa x) (csm_kappa y) /\
     near (csm_sigmasq x) (csm_sigmasq y) /\ near (csm_nu x) (csm_nu y)) /\
  (forall x y : nich_msg R, nich_close closeR x y = true <->
     cm_count x = cm_count y /\ near (cm_mean x) (cm_mean y) /\ near (cm_ctv x) (cm_ctv y)) /\
  (forall x y : niw_shared_msg R, niw_shared_close closeR x y = true <->
     near_all (wsm_mu x) (wsm_mu y) /\ near (wsm_kappa x) (wsm_kappa y) /\
     near_all (wsm_psi x) (wsm_psi y) /\ near (wsm_nu x) (wsm_nu y)) /\
  (forall x y : niw_msg R, niw_close closeR x y = true <->
     wm_count x = wm_count y /\ near_all (wm_sum_x x) (wm_sum_x y) /\ near_all (wm_sum_xxT x) (wm_sum_xxT y)).
Proof.
  repeat split_and!; intros x y;
    unfold bb_shared_close, bb_close, bnb_shared_close, bnb_close, dd_shared_close, dd_close, gp_shared_close,
      gp_close, nich_shared_close, nich_close, niw_shared_close, niw_close;
    rewrite ?andb_true_iff, ?closeR_near, ?rep_close_near, ?rep_eq_eq, ?BinInt.Z.eqb_eq; try tauto.
  all: destruct x, y; cbn; split; [intros [-> ->]; reflexivity | intros E; injection E as -> ->; auto].
Qed.
Print Assumptions C79_plain_messages.

(** Groups of DirichletProcessDiscrete: the same entries in any order.  Missing: counts of 2^32 and
    more (refuted below). *)
Theorem C79_dpd_group_partial : forall x y : dpd_msg,
  length (pm_keys x) = length (pm_values x) -> length (pm_keys y) = length (pm_values y) ->
  List.Forall (fun v => 0 <= v < 2 ^ 32) (pm_values x) -> List.Forall (fun v => 0 <= v < 2 ^ 32) (pm_values y) ->
  exists b, dpd_close eqR x y = Ok b /\
    (b = true <-> Permutation (entries (pm_keys x) (pm_values x)) (entries (pm_keys y) (pm_values y))).
Proof.
  intros x y Hx Hy Rx Ry. destruct (dpd_close_iff eqR x y Hx Hy) as (b & E & I).
  exists b. split; [exact E |]. rewrite I.
  assert (forall l, List.Forall (fun v => 0 <= v < 2 ^ 32) l -> map u32 l = l) as U.
  { induction 1 as [| v l Hv _ IH]; cbn; [reflexivity |]. rewrite IH. unfold u32. now rewrite BinInt.Z.mod_small. }
  now rewrite !U.
Qed.
Print Assumptions C79_dpd_group_partial.

(** Two groups with quite different counts are called close. *)
Theorem C79_dpd_group_counts_refuted : exists x y : dpd_msg,
  pm_keys x = [3] /\ pm_keys y = [3] /\ pm_values x = [1] /\ pm_values y = [1 + 2 ^ 32] /\
  dpd_close eqR x y = Ok true.
Proof. exists (mk_dpd_msg [3] [1]), (mk_dpd_msg [3] [1 + 2 ^ 32]). repeat split. Qed.
Print Assumptions C79_dpd_group_counts_refuted.

(** Shared of DirichletProcessDiscrete: gamma and alpha near, the same entries in any order.
    Missing: betas near instead of equal (refuted below). *)
Theorem C79_dpd_shared_partial : forall x y : dps_msg R,
  length (dm_betas x) = length (dm_values x) -> length (dm_counts x) = length (dm_values x) ->
  length (dm_betas y) = length (dm_values y) -> length (dm_counts y) = length (dm_values y) ->
  exists b, dps_close closeR eqR ltR x y = Ok b /\
    (b = true <-> near (dm_gamma x) (dm_gamma y) /\ near (dm_alpha x) (dm_alpha y) /\
       Permutation (entries (dm_values x) (dm_betas x)) (entries (dm_values y) (dm_betas y)) /\
       Permutation (entries (dm_values x) (dm_counts x)) (entries (dm_values y) (dm_counts y))).
Proof. exact dps_close_iff. Qed.
Print Assumptions C79_dpd_shared_partial.

(** One value whose betas are near: all fields are near, yet the messages are not close. *)
Theorem C79_dpd_shared_betas_refuted : exists x y : dps_msg R,
  dm_gamma x = dm_gamma y /\ dm_alpha x = dm_alpha y /\ dm_values x = dm_values y /\
  dm_counts x = dm_counts y /\ near_all (dm_betas x) (dm_betas y) /\
  dps_close closeR eqR ltR x y = Ok false.
Proof.
  exists (mk_dps_msg 1%R 1%R [5] [(1 / 2)%R] [2]), (mk_dps_msg 1%R 1%R [5] [(2 / 5)%R] [2]).
  cbn [dm_gamma dm_alpha dm_values dm_betas dm_counts]. repeat split.
  { constructor; [| constructor]. unfold near. rewrite !Rabs_right by lra. lra. }
  match goal with |- dps_close _ _ _ ?x ?y = _ =>
    destruct (dps_close_iff x y eq_refl eq_refl eq_refl eq_refl) as ([] & E & I) end; [| exact E].
  destruct (proj1 I eq_refl) as (_ & _ & P & _). cbn in P. apply Permutation_length_1 in P.
  injection P as P. lra.
Qed.
Print Assumptions C79_dpd_shared_betas_refuted.

(** The order in which a container is visited when dumping does not matter. *)
Theorem C79_dump_order_immaterial :
  (forall order order' : list (Z * Z), Permutation order order' ->
     dpd_close eqR (dpd_dump order) (dpd_dump order') = Ok true) /\
  (forall (sh : dpd_shared R) (order order' : list (Z * R)), Permutation order order' ->
     dps_close closeR eqR ltR (dps_dump sh order) (dps_dump sh order') = Ok true).
Proof.
  split.
  - intros order order' P.
    destruct (dpd_close_iff eqR (dpd_dump order) (dpd_dump order')) as (b & E & I); [cbn; now rewrite !map_length .. |].
    rewrite E. f_equal. apply I. cbn [dpd_dump pm_keys pm_values]. unfold entries.
    rewrite !map_map.
    assert (forall l : list (Z * Z), combine (map fst l) (map (fun x => u32 (as_size (snd x))) l) =
      map (fun kv => (fst kv, u32 (as_size (snd kv)))) l) as C.
    { induction l as [| kv l IH]; cbn; [reflexivity |]. now rewrite IH. }
    rewrite !C. now apply Permutation_map.
  - intros sh order order' P.
    destruct (dps_close_iff (dps_dump sh order) (dps_dump sh order')) as (b & E & I); [cbn; now rewrite !map_length .. |].
    rewrite E. f_equal. apply I. cbn [dps_dump dm_gamma dm_alpha dm_values dm_betas dm_counts]. unfold entries.
    assert (forall (f : Z * R -> Z) (l : list (Z * R)), combine (map fst l) (map f l) = map (fun kv => (fst kv, f kv)) l) as C.
    { intros f. induction l as [| kv l IH]; cbn; [reflexivity |]. now rewrite IH. }
    assert (forall l : list (Z * R), combine (map fst l) (map snd l) = l) as C'.
    { induction l as [| [k v] l IH]; cbn; [reflexivity |]. now rewrite IH. }
    rewrite !C, !C'. repeat split; [apply near_refl | apply near_refl | exact P | now apply Permutation_map].
Qed.
Print Assumptions C79_dump_order_immaterial.

(** Messages whose fields have different lengths are read out of bounds; the code assumes
    there are none (protobuf.hpp:213). *)
Example C79_short_field : dpd_close eqR (mk_dpd_msg [1; 2] [4]) (mk_dpd_msg [1; 2] [4; 5]) = UB.
Proof. reflexivity. Qed.

Example C79_nonvacuous :
  dpd_close eqR (mk_dpd_msg [7; 3; 7] [1; 2; 0]) (mk_dpd_msg [7; 7; 3] [0; 1; 2]) = Ok true /\
  dpd_close eqR (mk_dpd_msg [7; 3] [1; 2]) (mk_dpd_msg [7; 3] [2; 1]) = Ok false /\
  nich_close closeR (mk_nich_msg 2 1%R 1%R) (mk_nich_msg 2 1%R (11 / 10)%R) = true.
Proof.
  split; [reflexivity |]. split; [reflexivity |].
  apply (proj1 (proj2 (proj2 (proj2 (proj2 (proj2 (proj2 (proj2 (proj2 (proj2 C79_plain_messages)))))))))).
  cbn. split; [reflexivity |]. split; [apply near_refl |]. unfold near. rewrite Rabs_left, !Rabs_right by lra. lra.
Qed.
