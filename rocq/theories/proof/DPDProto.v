(** Round trip of a Dirichlet-process-discrete group. *)
From Coq Require Import Permutation.
From Verif.spec Require Import GroupSpec.
From Verif.model Require Import Base Component Sparse DPD Proto.
From Verif.proof Require Import BaseProof GroupProof ProtoProof.
From stdpp Require Import gmap.
From Verif.proof Require Import MapSum DPDProof DPDShared.
Local Open Scope Z_scope.

Lemma load_loop_add_all order : forall c, List.Forall (fun kv : Z * Z => i32_min <= kv.2 <= i32_max) order ->
  dpd_load_loop (map fst order) (map (fun kv => as_size (snd kv)) order) c = ctr_add_all c order.
Proof.
  induction order as [|[k v] order IH]; intros c H; cbn [map fst snd dpd_load_loop ctr_add_all]; [reflexivity|].
  apply List.Forall_cons_iff in H as [Hv H]. cbn [snd] in Hv. rewrite int_trip by exact Hv.
  destruct (ctr_add c k v); cbn [obind]; auto.
Qed.
Lemma dpd_trip dl old ys order : short ys -> Permutation order (map_to_list (dmap ys)) ->
  dpd_load dl old (dpd_dump order) = Ok (dpd_stat ys).
Proof.
  intros Hs P. unfold short in Hs. unfold dpd_load, dpd_dump. cbn [pm_keys pm_values]. rewrite !map_length, Nat.eqb_refl.
  rewrite dassert_at_true by reflexivity. cbn [obind]. pose proof (order_positive ys order P) as Hp.
  rewrite load_loop_add_all.
  2:{ eapply List.Forall_impl; [|exact Hp]. intros kv H. cbn beta in H. unfold i32_min, i32_max. lia. }
  pose proof (order_values ys order P) as HP.
  destruct (add_all_ok order []) as (l' & E & P').
  - eapply List.Forall_impl; [|exact Hp]. intros kv H. cbn beta in H. lia.
  - rewrite app_nil_r, (Permutation_length HP). exact Hs.
  - change (ctr_clear old) with (dpd_stat []). rewrite E. f_equal. apply dpd_stat_perm.
    rewrite P', app_nil_r. exact HP.
Qed.
