From Coq Require Import Reals Lra Lia ZArith List.
From Verif.spec Require Import LgammaSpec.
Local Open Scope R_scope.

Lemma ln_div x y : 0 < x -> 0 < y -> ln (x / y) = ln x - ln y.
Proof. intros. unfold Rdiv. rewrite ln_mult, ln_Rinv; auto using Rinv_0_lt_compat. Qed.

(** Sum of f over 0..n-1. *)
Fixpoint sumf (f : nat -> R) (n : nat) : R :=
  match n with O => 0 | S n' => sumf f n' + f n' end.

Lemma sumf_ext f g n : (forall i, (i < n)%nat -> f i = g i) -> sumf f n = sumf g n.
Proof. induction n; intro H; simpl; [reflexivity|]. rewrite IHn, H; auto. Qed.
Lemma sumf_add f n m : sumf f (n + m) = sumf f n + sumf (fun i => f (n + i)%nat) m.
Proof. induction m; simpl; [rewrite Nat.add_0_r; lra|]. rewrite Nat.add_succ_r. simpl. lra. Qed.

Lemma lg_ratio lg : lgamma_like lg -> forall x n, 0 < x ->
  lg (x + INR n) - lg x = sumf (fun i => ln (x + INR i)) n.
Proof.
  intros H x n Hx. induction n as [|n IH]; [simpl; rewrite Rplus_0_r; lra|].
  rewrite S_INR, <- Rplus_assoc, (lg_succ _ H).
  - simpl. lra.
  - pose proof (pos_INR n). lra.
Qed.

Lemma Int_part_spec r z : r - 1 < IZR z <= r -> Int_part r = z.
Proof.
  intros [H1 H2]. unfold Int_part. rewrite <- (tech_up r (z + 1)); [lia| |]; rewrite plus_IZR; lra.
Qed.

(** A witness. *)
Definition ceil1 (x : R) : nat := Z.to_nat (- Int_part (- x) - 1).
Definition lg_witness (x : R) : R := sumf (fun i => ln (x - 1 - INR i)) (ceil1 x).

Lemma sumf_S_l f n : sumf f (S n) = f O + sumf (fun i => f (S i)) n.
Proof. induction n; simpl in *; [lra|]. lra. Qed.

Lemma lg_witness_ok : lgamma_like lg_witness.
Proof.
  split.
  - unfold lg_witness, ceil1. replace (Int_part (Ropp 1)) with (-1)%Z; [reflexivity|].
    symmetry; apply Int_part_spec. simpl. lra.
  - intros x Hx. unfold lg_witness.
    assert (E : ceil1 (x + 1) = S (ceil1 x)).
    { unfold ceil1. replace (Int_part (- (x + 1))) with (Int_part (- x) - 1)%Z.
      - assert (Int_part (- x) < 0)%Z.
        { destruct (base_Int_part (- x)) as [A _]. apply lt_IZR. lra. }
        lia.
      - symmetry; apply Int_part_spec. destruct (base_Int_part (- x)) as [A B]. rewrite minus_IZR. lra. }
    rewrite E, sumf_S_l. simpl (INR 0). replace (x + 1 - 1 - 0) with x by lra.
    f_equal. apply sumf_ext. intros i _. rewrite S_INR. f_equal. lra.
Qed.
