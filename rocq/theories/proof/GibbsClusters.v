(** Clusterings and one row more. *)
From Coq Require Import ZArith Lia.
From stdpp Require Import gmap.
From Verif.spec Require Import GibbsSpec.

Lemma same_refl a : same_clusters a a.
Proof. split; tauto. Qed.
Lemma same_sym a b : same_clusters a b -> same_clusters b a.
Proof.
  intros [A B]. split; [intro j; symmetry; apply A|]. intros j k Hj Hk. symmetry. apply B; intro X; [apply Hj|apply Hk]; now apply A.
Qed.
Lemma same_trans a b c : same_clusters a b -> same_clusters b c -> same_clusters a c.
Proof.
  intros [A B] [A' B']. split; [intro j; now rewrite A|]. intros j k Hj Hk. rewrite B by assumption. apply B'; intro X; [apply Hj|apply Hk]; now apply A.
Qed.

Section One.
  Variables (a0 a' : gmap nat Z) (i : nat).
  Hypotheses (H0 : a0 !! i = None) (Hi : a' !! i <> None) (S : same_clusters a0 (delete i a')).
  Lemma off_none j : j <> i -> a0 !! j = None <-> a' !! j = None.
  Proof. intro N. destruct S as [A _]. specialize (A j). rewrite lookup_delete_ne in A by congruence. exact A. Qed.
  Lemma off_eq j k : j <> i -> k <> i -> a0 !! j <> None -> a0 !! k <> None -> a0 !! j = a0 !! k <-> a' !! j = a' !! k.
  Proof. intros Nj Nk Hj Hk. destruct S as [_ B]. specialize (B j k Hj Hk). rewrite !lookup_delete_ne in B by congruence. exact B. Qed.
  Lemma sc_none g j : <[i := g]> a0 !! j = None <-> a' !! j = None.
  Proof.
    destruct (decide (j = i)) as [->|N]; [rewrite lookup_insert; intuition congruence|]. rewrite lookup_insert_ne by congruence. now apply off_none.
  Qed.
  Lemma sc_ins g : (forall j, j <> i -> a0 !! j <> None -> a0 !! j = Some g <-> a' !! j = a' !! i) -> same_clusters (<[i := g]> a0) a'.
  Proof.
    intro H. split; [apply sc_none|]. intros j k Hj Hk. destruct (decide (j = i)) as [->|Nj], (decide (k = i)) as [->|Nk].
    - tauto.
    - rewrite lookup_insert. rewrite lookup_insert_ne in * by congruence. specialize (H k Nk Hk). split; intro X; symmetry; apply H; congruence.
    - rewrite lookup_insert. rewrite lookup_insert_ne in * by congruence. exact (H j Nj Hj).
    - rewrite !lookup_insert_ne in * by congruence. now apply off_eq.
  Qed.
  Lemma sc_inv g j : same_clusters (<[i := g]> a0) a' -> j <> i -> a0 !! j <> None -> a0 !! j = Some g <-> a' !! j = a' !! i.
  Proof.
    intros [_ B] N Hj. specialize (B j i). rewrite lookup_insert in B. rewrite lookup_insert_ne in B by congruence. apply B; [exact Hj|discriminate].
  Qed.
  Lemma sc_alone g : (forall j, a0 !! j <> Some g) -> (forall j, j <> i -> a' !! j <> a' !! i) -> same_clusters (<[i := g]> a0) a'.
  Proof. intros A B. apply sc_ins. intros j N Hj. split; intro X; exfalso; [now apply (A j)|now apply (B j)]. Qed.
  Lemma sc_mate g j : j <> i -> a' !! j = a' !! i -> a0 !! j = Some g -> same_clusters (<[i := g]> a0) a'.
  Proof.
    intros N E E0. apply sc_ins. intros k Nk Hk. rewrite <- E, <- E0. apply off_eq; auto. congruence.
  Qed.
  Lemma sc_alone_inv g : same_clusters (<[i := g]> a0) a' -> (forall j, j <> i -> a' !! j <> a' !! i) -> forall j, a0 !! j <> Some g.
  Proof.
    intros H B j E. destruct (decide (j = i)) as [->|N]; [congruence|]. apply (B j N). apply (sc_inv g j H N); congruence.
  Qed.
  Lemma sc_mate_inv g j : same_clusters (<[i := g]> a0) a' -> j <> i -> a' !! j = a' !! i -> a0 !! j = Some g.
  Proof.
    intros H N E. apply (sc_inv g j H N); [|exact E]. intro X. apply off_none in X; [|exact N]. congruence.
  Qed.
End One.
