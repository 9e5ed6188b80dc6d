(** Proofs about model/MessageClose.v. *)
From Coq Require Import Reals Lra Permutation.
From Verif.model Require Import Base Num VectorMath Component BB GP BNB NICH DD Sparse DPD NIW PitmanYor Proto AssertClose MessageClose.
From Verif.spec Require Import CloseSpec MessageSpec.
From Verif.proof Require Import BaseProof CloseProof.
From stdpp Require Import sorting.

(** A strict total order given by a test. *)
Record total {A} (lt : A -> A -> bool) : Prop := {
  t_asym : forall x y, lt x y = true -> lt y x = false;
  t_eq : forall x y, lt x y = false -> lt y x = false -> x = y;
  t_trans : forall x y z, lt x y = true -> lt y z = true -> lt x z = true }.

Lemma total_Z : total Z.ltb.
Proof.
  split; intros; rewrite ?BinInt.Z.ltb_lt, ?BinInt.Z.ltb_ge in *; lia.
Qed.

Lemma total_R : total ltR.
Proof. split; unfold ltR; intros; repeat destruct (Rlt_dec _ _); try discriminate; try reflexivity; lra. Qed.

Lemma total_pair {A B} (lta : A -> A -> bool) (ltb : B -> B -> bool) :
  total lta -> total ltb -> total (pair_lt lta ltb).
Proof.
  intros HA HB. split; unfold pair_lt.
  - intros [a b] [c d]; cbn. destruct (lta a c) eqn:E1, (lta c a) eqn:E2; cbn; try congruence.
    + rewrite (t_asym _ HA _ _ E1) in E2. discriminate.
    + apply (t_asym _ HB).
  - intros [a b] [c d]; cbn. destruct (lta a c) eqn:E1, (lta c a) eqn:E2; cbn; try discriminate.
    intros H1 H2. f_equal; [now apply (t_eq _ HA) | now apply (t_eq _ HB)].
  - intros [a b] [c d] [e f]; cbn. intros H1 H2.
    destruct (lta a c) eqn:E1, (lta c e) eqn:E2.
    + now rewrite (t_trans _ HA _ _ _ E1 E2).
    + cbn in H2. apply andb_true_iff in H2. destruct H2 as [H2 _]. apply negb_true_iff in H2.
      rewrite (t_eq _ HA _ _ E2 H2) in E1. now rewrite E1.
    + cbn in H1. apply andb_true_iff in H1. destruct H1 as [H1 _]. apply negb_true_iff in H1.
      rewrite <- (t_eq _ HA _ _ E1 H1) in E2. now rewrite E2.
    + cbn in H1, H2. apply andb_true_iff in H1, H2. destruct H1 as [H1 H1'], H2 as [H2 H2'].
      apply negb_true_iff in H1, H2. pose proof (t_eq _ HA _ _ E1 H1) as ->. pose proof (t_eq _ HA _ _ E2 H2) as ->.
      rewrite E2. cbn. now apply (t_trans _ HB _ d).
Qed.

Section Sort.
Context {A : Type} (lt : A -> A -> bool) (HT : total lt).
Let le (x y : A) : Prop := lt y x = false.

Lemma insert_perm a l : Permutation (insert_by lt a l) (a :: l).
Proof.
  induction l as [| b t IH]; cbn; [reflexivity |]. destruct (lt b a); [| reflexivity].
  rewrite IH. apply perm_swap.
Qed.
Lemma sort_perm l : Permutation (sort_by lt l) l.
Proof. induction l as [| a t IH]; cbn; [reflexivity |]. rewrite insert_perm, IH. reflexivity. Qed.

Lemma insert_sorted a l : Sorted le l -> Sorted le (insert_by lt a l).
Proof.
  induction 1 as [| b t HS IH HH]; cbn; [repeat constructor |].
  destruct (lt b a) eqn:E.
  - constructor; [exact IH |]. destruct t as [| c t]; cbn.
    + constructor. unfold le. now apply (t_asym _ HT).
    + destruct (lt c a); constructor; [now inversion HH |]. unfold le. now apply (t_asym _ HT).
  - constructor; [now constructor |]. now constructor.
Qed.
Lemma sort_sorted l : Sorted le (sort_by lt l).
Proof. induction l; cbn; [constructor |]. now apply insert_sorted. Qed.

Lemma sort_eq l l' : sort_by lt l = sort_by lt l' <-> Permutation l l'.
Proof.
  split; intros H.
  - rewrite <- (sort_perm l), H. apply sort_perm.
  - assert (Transitive le) as H1.
    { intros x y z H1 H2. unfold le in *. destruct (lt z x) eqn:E; [| reflexivity].
      destruct (lt x y) eqn:E'; [pose proof (t_trans _ HT _ _ _ E E'); congruence |].
      rewrite (t_eq _ HT _ _ E' H1) in E. congruence. }
    assert (AntiSymm (=) le) as H2.
    { intros x y Ha Hb. now apply (t_eq _ HT). }
    apply (Sorted_unique le); [apply sort_sorted | apply sort_sorted |].
    now rewrite !sort_perm.
Qed.
End Sort.

Lemma all2_eq {A} (p : A -> A -> bool) : (forall x y, p x y = true <-> x = y) ->
  forall x y, all2 p x y = true <-> x = y.
Proof.
  intros H x. induction x as [| a x IH]; intros [| b y]; cbn; try (split; congruence).
  destruct (p a b) eqn:E.
  - apply H in E. subst. rewrite IH. split; congruence.
  - split; [discriminate |]. intros X. injection X as -> ->. pose proof (proj2 (H b b) eq_refl). congruence.
Qed.

Lemma all2_Forall2 {A} (p : A -> A -> bool) (P : A -> A -> Prop) : (forall x y, p x y = true <-> P x y) ->
  forall x y, all2 p x y = true <-> List.Forall2 P x y.
Proof.
  intros H x. induction x as [| a x IH]; intros [| b y]; cbn.
  - split; auto.
  - split; [discriminate | inversion 1].
  - split; [discriminate | inversion 1].
  - destruct (p a b) eqn:E.
    + apply H in E. rewrite IH. split; [auto | now inversion 1].
    + split; [discriminate |]. inversion 1; subst. match goal with X : P a b |- _ => apply H in X end. congruence.
Qed.

Lemma closeR_near x y : closeR x y = true <-> near x y.
Proof. unfold closeR, near, tolR. destruct (Rle_dec _ _); split; congruence || contradiction || auto. Qed.

Lemma near_refl x : near x x.
Proof.
  unfold near. replace (x - x)%R with 0%R by ring. rewrite Rabs_R0.
  pose proof (Rabs_pos x). apply Rmult_le_pos; lra.
Qed.

Lemma rep_close_near x y : rep_close closeR x y = true <-> near_all x y.
Proof.
  unfold rep_close, near_all. rewrite <- (all2_Forall2 _ _ closeR_near).
  destruct (PeanoNat.Nat.eqb_spec (length x) (length y)) as [E | E]; [reflexivity |].
  split; [discriminate |]. intros H. apply (all2_Forall2 _ _ closeR_near) in H.
  contradiction E. now apply Forall2_length in H.
Qed.

Lemma rep_eq_eq x y : rep_eq x y = true <-> x = y.
Proof.
  unfold rep_eq. rewrite <- (all2_eq BinInt.Z.eqb BinInt.Z.eqb_eq).
  destruct (PeanoNat.Nat.eqb_spec (length x) (length y)) as [E | E]; [reflexivity |].
  split; [discriminate |]. intros H. apply (all2_eq BinInt.Z.eqb BinInt.Z.eqb_eq) in H. now subst.
Qed.

Lemma paired_ok {A B} (ks : list A) (vs : list B) : (length ks <= length vs)%nat -> paired ks vs = Ok (entries ks vs).
Proof.
  revert vs. induction ks as [| k ks IH]; intros [| v vs] H; cbn in *; try reflexivity; [lia |].
  rewrite IH by lia. reflexivity.
Qed.

Lemma same_ZZ (feq : R -> R -> bool) x y : same feq (SVec (SPair SInt SInt)) x y = true <-> x = y.
Proof.
  cbn [same]. apply all2_eq. intros [a b] [c d]. cbn.
  destruct (BinInt.Z.eqb_spec a c) as [-> | E]; [| split; congruence].
  rewrite BinInt.Z.eqb_eq. split; congruence.
Qed.

Lemma close_ZR x y : are_close closeR eqR (SVec (SPair SInt SNum)) x y = true <-> x = y.
Proof.
  assert (forall u v : Z * R, same eqR (SPair SInt SNum) u v = true <-> u = v) as H.
  { intros [a b] [c d]. cbn. destruct (BinInt.Z.eqb_spec a c) as [-> | E]; [| split; congruence].
    unfold eqR. destruct (Req_EM_T b d); split; congruence. }
  assert (forall l l' : list (Z * R),
    (if (length l =? length l')%nat then all2 (same eqR (SPair SInt SNum)) l l' else false) = true <-> l = l') as G.
  { intros l l'. destruct (PeanoNat.Nat.eqb_spec (length l) (length l')) as [E | E].
    - exact (all2_eq _ H l l').
    - split; [discriminate |]. intros ->. now contradiction E. }
  exact (G x y).
Qed.

Lemma dpd_close_iff (feq : R -> R -> bool) x y :
  length (pm_keys x) = length (pm_values x) -> length (pm_keys y) = length (pm_values y) ->
  exists b, dpd_close feq x y = Ok b /\
    (b = true <-> Permutation (entries (pm_keys x) (map u32 (pm_values x))) (entries (pm_keys y) (map u32 (pm_values y)))).
Proof.
  intros Hx Hy. unfold dpd_close.
  destruct (PeanoNat.Nat.eqb_spec (length (pm_keys x)) (length (pm_keys y))) as [E | E]; cbn [negb].
  - rewrite !paired_ok by (rewrite map_length; lia). cbn [obind]. eexists. split; [reflexivity |].
    rewrite same_ZZ. apply sort_eq. apply total_pair; apply total_Z.
  - eexists. split; [reflexivity |]. split; [discriminate |]. intros P. apply Permutation_length in P.
    unfold entries in P. rewrite !combine_length, !map_length in P. lia.
Qed.

Lemma dps_close_iff x y :
  length (dm_betas x) = length (dm_values x) -> length (dm_counts x) = length (dm_values x) ->
  length (dm_betas y) = length (dm_values y) -> length (dm_counts y) = length (dm_values y) ->
  exists b, dps_close closeR eqR ltR x y = Ok b /\
    (b = true <-> near (dm_gamma x) (dm_gamma y) /\ near (dm_alpha x) (dm_alpha y) /\
       Permutation (entries (dm_values x) (dm_betas x)) (entries (dm_values y) (dm_betas y)) /\
       Permutation (entries (dm_values x) (dm_counts x)) (entries (dm_values y) (dm_counts y))).
Proof.
  intros B1 C1 B2 C2. unfold dps_close.
  pose proof (closeR_near (dm_gamma x) (dm_gamma y)) as G. pose proof (closeR_near (dm_alpha x) (dm_alpha y)) as A.
  destruct (closeR (dm_gamma x) (dm_gamma y)); cbn [negb orb].
  2: { eexists. split; [reflexivity |]. split; [discriminate |]. intros (X & _). now apply G in X. }
  destruct (closeR (dm_alpha x) (dm_alpha y)); cbn [negb orb].
  2: { eexists. split; [reflexivity |]. split; [discriminate |]. intros (_ & X & _). now apply A in X. }
  destruct (PeanoNat.Nat.eqb_spec (length (dm_values x)) (length (dm_values y))) as [E | E]; cbn [negb].
  - rewrite !paired_ok by lia. cbn [obind]. eexists. split; [reflexivity |].
    rewrite andb_true_iff, same_ZZ, close_ZR.
    rewrite (sort_eq _ (total_pair _ _ total_Z total_R)), (sort_eq _ (total_pair _ _ total_Z total_Z)). tauto.
  - eexists. split; [reflexivity |]. split; [discriminate |]. intros (_ & _ & P & _). apply Permutation_length in P.
    unfold entries in P. rewrite !combine_length in P. lia.
Qed.
