(** The table the model gives fast_exp holds floats next to 2^(i/1024). *)
From Coq Require Import List Bool ZArith Reals Lra Lia.
From Verif.model Require Import ExpTable.
From Verif.spec Require Import ExpSpec.
Import ListNotations.
Local Open Scope R_scope.

(** fixed point arithmetic with 80 fraction bits *)
Definition S80 : Z := 1208925819614629174706176.
Definition q_lo : Z := 1209744420392730641849633.
Definition q_hi : Z := 1209744420392730641857825.
Definition fdn (a b : Z) : Z := (a * b / S80)%Z.
Definition fup (a b : Z) : Z := (a * b / S80 + 1)%Z.

Fixpoint check_table (tbl : list Z) (lo hi : Z) : bool :=
  match tbl with
  | [] => true
  | m :: t => ((0 <=? m) && (m <? 8388608) && ((8388608 + m - 1) * 144115188075855872 <=? lo) &&
               (hi <=? (8388608 + m + 1) * 144115188075855872) && check_table t (fdn lo q_lo) (fup hi q_hi))%Z
  end.

Lemma S80_pos : 0 < IZR S80.
Proof. apply IZR_lt. reflexivity. Qed.

Lemma fdn_le a b : IZR (fdn a b) * IZR S80 <= IZR a * IZR b.
Proof.
  rewrite <- !mult_IZR. apply IZR_le. unfold fdn. rewrite Z.mul_comm. apply Z.mul_div_le. reflexivity.
Qed.
Lemma fup_ge a b : IZR a * IZR b <= IZR (fup a b) * IZR S80.
Proof.
  rewrite <- !mult_IZR. apply IZR_le. unfold fup.
  pose proof (Z.mul_succ_div_gt (a * b) S80 eq_refl) as H. lia.
Qed.

Lemma iter_up q n a w : 0 <= IZR q -> 0 <= w -> w <= IZR a ->
  w * (IZR q / IZR S80) ^ n <= IZR (Nat.iter n (fun z => fup z q) a).
Proof.
  intros Hq Hw H. pose proof S80_pos as HS. induction n as [| n IH]; cbn [Nat.iter nat_rect]; [cbn; lra |].
  pose proof (fup_ge (Nat.iter n (fun z => fup z q) a) q) as G. unfold Nat.iter in *.
  set (z := nat_rect _ _ _ _) in *.
  apply Rmult_le_reg_r with (IZR S80); [exact HS |]. eapply Rle_trans; [| exact G].
  cbn [pow]. replace (w * (IZR q / IZR S80 * (IZR q / IZR S80) ^ n) * IZR S80) with
    ((w * (IZR q / IZR S80) ^ n) * IZR q) by (field; lra).
  apply Rmult_le_compat_r; assumption.
Qed.
Lemma iter_dn q n a w : 0 <= IZR q -> IZR a <= w ->
  IZR (Nat.iter n (fun z => fdn z q) a) <= w * (IZR q / IZR S80) ^ n.
Proof.
  intros Hq H. pose proof S80_pos as HS. induction n as [| n IH]; cbn [Nat.iter nat_rect]; [cbn; lra |].
  pose proof (fdn_le (Nat.iter n (fun z => fdn z q) a) q) as G. unfold Nat.iter in *.
  set (z := nat_rect _ _ _ _) in *.
  apply Rmult_le_reg_r with (IZR S80); [exact HS |]. eapply Rle_trans; [exact G |].
  cbn [pow]. replace (w * (IZR q / IZR S80 * (IZR q / IZR S80) ^ n) * IZR S80) with
    ((w * (IZR q / IZR S80) ^ n) * IZR q) by (field; lra).
  apply Rmult_le_compat_r; assumption.
Qed.

Definition g1 : R := Rpower 2 (1 / 1024).
Lemma g1_pos : 0 < g1.
Proof. apply exp_pos. Qed.
Lemma g1_pow : g1 ^ 1024 = 2.
Proof.
  unfold g1. rewrite <- Rpower_pow by apply exp_pos. rewrite Rpower_mult.
  replace (1 / 1024 * INR 1024) with 1; [apply Rpower_1; lra |].
  rewrite INR_IZR_INZ. change (Z.of_nat 1024) with 1024%Z. field.
Qed.

Lemma g1_between : IZR q_lo <= IZR S80 * g1 <= IZR q_hi.
Proof.
  pose proof S80_pos as HS. pose proof g1_pos as HG.
  split; apply Rnot_lt_le; intros H.
  - assert (g1 ^ 1024 < (IZR q_lo / IZR S80) ^ 1024) as G.
    { assert (g1 < IZR q_lo / IZR S80) as G.
      { apply Rmult_lt_reg_r with (IZR S80); [exact HS |]. unfold Rdiv. rewrite Rmult_assoc, Rinv_l; lra. }
      rewrite <- !Rpower_pow; try lra. apply exp_increasing.
      apply Rmult_lt_compat_l; [apply lt_0_INR; lia |]. apply ln_increasing; lra. }
    rewrite g1_pow in G.
    pose proof (iter_up q_lo 1024 S80 (IZR S80) ltac:(apply IZR_le; discriminate) ltac:(lra) ltac:(lra)) as U.
    assert (IZR (Nat.iter 1024 (fun z => fup z q_lo) S80) <= IZR (2 * S80)) as V.
    { apply IZR_le. vm_compute. discriminate. }
    rewrite mult_IZR in V. nra.
  - assert ((IZR q_hi / IZR S80) ^ 1024 < g1 ^ 1024) as G.
    { assert (IZR q_hi / IZR S80 < g1) as G.
      { apply Rmult_lt_reg_r with (IZR S80); [exact HS |]. unfold Rdiv. rewrite Rmult_assoc, Rinv_l; lra. }
      assert (0 < IZR q_hi / IZR S80) as G0.
      { apply Rmult_lt_0_compat; [apply IZR_lt; reflexivity | apply Rinv_0_lt_compat; exact HS]. }
      rewrite <- !Rpower_pow; try lra. apply exp_increasing.
      apply Rmult_lt_compat_l; [apply lt_0_INR; lia |]. apply ln_increasing; lra. }
    rewrite g1_pow in G.
    pose proof (iter_dn q_hi 1024 S80 (IZR S80) ltac:(apply IZR_le; discriminate) ltac:(lra)) as U.
    assert (IZR (2 * S80) <= IZR (Nat.iter 1024 (fun z => fdn z q_hi) S80)) as V.
    { apply IZR_le. vm_compute. discriminate. }
    rewrite mult_IZR in V. nra.
Qed.

Lemma next_power k : Rpower 2 (INR (S k) / 1024) = Rpower 2 (INR k / 1024) * g1.
Proof. unfold g1. rewrite <- Rpower_plus. f_equal. rewrite S_INR. field. Qed.

Lemma check_table_ok tbl : forall k lo hi,
  check_table tbl lo hi = true -> (0 <= lo)%Z ->
  IZR lo <= IZR S80 * Rpower 2 (INR k / 1024) <= IZR hi ->
  forall i m, nth_error tbl i = Some m ->
    (0 <= m < 8388608)%Z /\ Rabs (1 + IZR m / 8388608 - Rpower 2 (INR (k + i) / 1024)) <= / 8388608.
Proof.
  induction tbl as [| m0 tbl IH]; intros k lo hi C P B [| i] m E; try discriminate E; cbn [check_table] in C;
    apply Bool.andb_true_iff in C as [C C5]; repeat (apply Bool.andb_true_iff in C as [C ?]);
    repeat match goal with H : (_ <=? _)%Z = true |- _ => apply Z.leb_le in H | H : (_ <? _)%Z = true |- _ => apply Z.ltb_lt in H end.
  - injection E as <-. split; [lia |]. rewrite Nat.add_0_r.
    set (w := Rpower 2 (INR k / 1024)) in *.
    assert (IZR ((8388608 + m0 - 1) * 144115188075855872) <= IZR lo) as U1 by (now apply IZR_le).
    assert (IZR hi <= IZR ((8388608 + m0 + 1) * 144115188075855872)) as U2 by (now apply IZR_le).
    rewrite mult_IZR, minus_IZR, plus_IZR in U1. rewrite mult_IZR, plus_IZR, plus_IZR in U2.
    unfold S80 in B. apply Rabs_le. lra.
  - cbn [nth_error] in E. replace (k + S i)%nat with (S k + i)%nat by lia.
    eapply (IH (S k)); [exact C5 | | | exact E].
    { unfold fdn. apply Z.div_pos; [| reflexivity]. apply Z.mul_nonneg_nonneg; [exact P | discriminate]. }
    rewrite next_power. pose proof g1_between as HG. pose proof S80_pos as HS. pose proof g1_pos as Hg.
    pose proof (fdn_le lo q_lo) as U3. pose proof (fup_ge hi q_hi) as U4.
    assert (0 <= IZR lo) as P' by (now apply IZR_le). assert (0 <= IZR q_lo) as Pq by (apply IZR_le; discriminate).
    set (w := Rpower 2 (INR k / 1024)) in *.
    assert (0 < w) as Hw by apply exp_pos.
    split; apply Rmult_le_reg_r with (IZR S80); try exact HS.
    + eapply Rle_trans; [exact U3 |]. replace (IZR S80 * (w * g1) * IZR S80) with ((IZR S80 * w) * (IZR S80 * g1)) by ring.
      apply Rmult_le_compat; tauto.
    + eapply Rle_trans; [| exact U4]. replace (IZR S80 * (w * g1) * IZR S80) with ((IZR S80 * w) * (IZR S80 * g1)) by ring.
      apply Rmult_le_compat; try tauto; apply Rmult_le_pos; lra.
Qed.

Lemma exp_table_faithful : faithful_table exp_table.
Proof.
  split; [vm_compute; reflexivity |]. split; [reflexivity |].
  intros i m E. apply (check_table_ok exp_table 0 S80 S80); [vm_compute; reflexivity | discriminate | | exact E].
  cbn [INR]. unfold Rdiv. rewrite Rmult_0_l, Rpower_O by lra. lra.
Qed.
