(** Means of products of normalised gamma draws. *)
From Coq Require Import List Reals Lra Lia Psatz.
From Coquelicot Require Import Coquelicot.
From Verif.spec Require Import DrawSpec PartitionSpec.
Import ListNotations.
Local Open Scope R_scope.

(** ** Weights *)
Lemma w_pos a x : 0 < gamma_weight a x.
Proof. unfold gamma_weight, Rpower. apply Rmult_lt_0_compat; apply exp_pos. Qed.
Lemma w_der a x : 0 < x -> is_derive (fun y => Rpower y a * exp (- y)) x (gamma_weight a x * (a - x)).
Proof.
  intros H. unfold gamma_weight, Rpower. auto_derive; [exact H |].
  replace (exp ((a - 1) * ln x)) with (exp (a * ln x) * / x).
  - field. lra.
  - replace ((a - 1) * ln x) with (a * ln x + - ln x) by ring. rewrite exp_plus, exp_Ropp, exp_ln by exact H. reflexivity.
Qed.
Lemma w_mul a x : 0 < x -> x * gamma_weight a x = Rpower x a * exp (- x).
Proof.
  intros H. unfold gamma_weight. rewrite <- Rmult_assoc. f_equal.
  rewrite <- (Rpower_1 x) at 1 by exact H. rewrite <- Rpower_plus. f_equal. ring.
Qed.
Lemma w_cont a x : 0 < x -> continuous (gamma_weight a) x.
Proof.
  intros H. apply (ex_derive_continuous (gamma_weight a)). unfold gamma_weight, Rpower. auto_derive. exact H.
Qed.

Lemma derive_quad (f : R -> R) (x d K eps : R) : 0 < eps -> (forall y, Rabs (y - x) < eps -> Rabs (f y - f x - (y - x) * d) <= K * (y - x)²) ->
  is_derive f x d.
Proof.
  intros He H. apply is_derive_Reals. intros e He2.
  assert (0 < Rabs K + 1) as HK by (pose proof (Rabs_pos K); lra).
  assert (0 < Rmin eps (e / (Rabs K + 1))) as P by (apply Rmin_pos; [exact He | apply Rdiv_lt_0_compat; lra]).
  exists (mkposreal _ P). intros h Hh Hd. cbn in Hd.
  assert (Rabs h < eps) as H1 by (eapply Rlt_le_trans; [exact Hd | apply Rmin_l]).
  assert (Rabs h < e / (Rabs K + 1)) as H2 by (eapply Rlt_le_trans; [exact Hd | apply Rmin_r]).
  specialize (H (x + h)). replace (x + h - x) with h in H by ring. specialize (H H1).
  replace ((f (x + h) - f x) / h - d) with ((f (x + h) - f x - h * d) / h) by (field; exact Hh).
  unfold Rdiv. rewrite Rabs_mult, Rabs_inv.
  assert (0 < Rabs h) as Hp by (now apply Rabs_pos_lt).
  apply Rmult_lt_reg_r with (Rabs h); [exact Hp |]. rewrite Rmult_assoc, Rinv_l, Rmult_1_r by lra.
  eapply Rle_lt_trans; [exact H |]. rewrite Rsqr_abs. unfold Rsqr. rewrite <- Rmult_assoc. apply Rmult_lt_compat_r; [exact Hp |].
  apply Rle_lt_trans with ((Rabs K + 1) * Rabs h); [apply Rmult_le_compat_r; [lra |]; pose proof (Rle_abs K); lra |].
  apply Rmult_lt_reg_l with (/ (Rabs K + 1)); [now apply Rinv_0_lt_compat |].
  rewrite <- Rmult_assoc, Rinv_l, Rmult_1_l by lra. rewrite Rmult_comm. exact H2.
Qed.
Lemma lip_cont (f : R -> R) (x K eps : R) : 0 < eps -> (forall y, Rabs (y - x) < eps -> Rabs (f y - f x) <= K * Rabs (y - x)) -> continuous f x.
Proof.
  intros He H. apply continuity_pt_filterlim. intros e He2.
  assert (0 < Rabs K + 1) as HK by (pose proof (Rabs_pos K); lra).
  exists (Rmin eps (e / (Rabs K + 1))). split; [apply Rmin_pos; [exact He | apply Rdiv_lt_0_compat; lra] |].
  intros y [_ Hd]. cbn in Hd |- *. unfold R_dist in *.
  assert (Rabs (y - x) < eps) as H1 by (eapply Rlt_le_trans; [exact Hd | apply Rmin_l]).
  assert (Rabs (y - x) < e / (Rabs K + 1)) as H2 by (eapply Rlt_le_trans; [exact Hd | apply Rmin_r]).
  eapply Rle_lt_trans; [apply H, H1 |].
  apply Rle_lt_trans with ((Rabs K + 1) * Rabs (y - x)); [apply Rmult_le_compat_r; [apply Rabs_pos |]; pose proof (Rle_abs K); lra |].
  apply Rmult_lt_reg_l with (/ (Rabs K + 1)); [now apply Rinv_0_lt_compat |].
  rewrite <- Rmult_assoc, Rinv_l, Rmult_1_l by lra. rewrite Rmult_comm. exact H2.
Qed.

Lemma rint_scal (f : R -> R) c a b : ex_RInt f a b -> RInt (fun x => c * f x) a b = c * RInt f a b.
Proof. intros H. exact (RInt_scal (V := R_CompleteNormedModule) f a b c H). Qed.
Lemma rint_plus (f g : R -> R) a b : ex_RInt f a b -> ex_RInt g a b -> RInt (fun x => f x + g x) a b = RInt f a b + RInt g a b.
Proof. intros H1 H2. exact (RInt_plus (V := R_CompleteNormedModule) f g a b H1 H2). Qed.
Lemma rint_ext (f g : R -> R) a b : a <= b -> (forall x, a <= x <= b -> f x = g x) -> RInt f a b = RInt g a b.
Proof.
  intros Hab H. apply RInt_ext. intros x Hx. rewrite Rmin_left, Rmax_right in Hx by exact Hab. apply H. lra.
Qed.
Lemma ex_scal (f : R -> R) c a b : ex_RInt f a b -> ex_RInt (fun x => c * f x) a b.
Proof. intros H. exact (ex_RInt_scal (V := R_NormedModule) f a b c H). Qed.
Lemma rint_abs_le (f g : R -> R) a b : a <= b -> ex_RInt f a b -> ex_RInt g a b -> (forall x, a <= x <= b -> Rabs (f x) <= g x) ->
  Rabs (RInt f a b) <= RInt g a b.
Proof.
  intros Hab Hf Hg H. apply (norm_RInt_le (V := R_NormedModule) f g a b); [exact Hab | exact H | |];
    apply (RInt_correct (V := R_CompleteNormedModule)); assumption.
Qed.

(** ** Integrals over one box *)
Section Box.
  Variables (l h : R).
  Hypothesis Hl : 0 < l.
  Hypothesis Hlh : l <= h.
  Notation B := (box_integral l h).
  Definition ok (x : R) : Prop := l / 2 < x < h + l / 2.
  Definition reg (k : nat) (xs : list R) : Prop := length xs = k /\ List.Forall ok xs.
  Fixpoint d1 (xs ys : list R) : R :=
    match xs, ys with x :: xs', y :: ys' => Rabs (x - y) + d1 xs' ys' | _, _ => 0 end.
  Definition bnd (k : nat) (f : list R -> R) (M : R) : Prop := forall xs, reg k xs -> Rabs (f xs) <= M.
  Definition lip (k : nat) (f : list R -> R) (L : R) : Prop :=
    0 <= L /\ forall xs ys, reg k xs -> reg k ys -> Rabs (f xs - f ys) <= L * d1 xs ys.
  Definition nice (k : nat) (f : list R -> R) : Prop := (exists M, bnd k f M) /\ exists L, lip k f L.

  Lemma reg_cons k x xs : ok x -> reg k xs -> reg (S k) (x :: xs).
  Proof. intros H [H1 H2]. split; [cbn; now rewrite H1 | now constructor]. Qed.
  Lemma d1_pos xs : forall ys, 0 <= d1 xs ys.
  Proof. induction xs as [|x xs IH]; intros [|y ys]; cbn; try lra. pose proof (Rabs_pos (x - y)). specialize (IH ys). lra. Qed.
  Lemma d1_refl xs : d1 xs xs = 0.
  Proof. induction xs as [|x xs IH]; cbn; [reflexivity |]. rewrite IH, Rminus_eq_0, Rabs_R0. lra. Qed.
  Lemma ok_in x : l <= x <= h -> ok x.
  Proof. intros H. unfold ok. lra. Qed.

  (** closure *)
  Lemma nice_const k c : nice k (fun _ => c).
  Proof.
    split; [exists (Rabs c); intros xs _; lra |]. exists 0. split; [lra |]. intros xs ys _ _.
    rewrite Rminus_eq_0, Rabs_R0. lra.
  Qed.
  Lemma bnd_pos k f M : bnd k f M -> 0 <= h - l -> 0 <= M.
  Proof.
    intros H _. assert (reg k (repeat h k)) as R.
    { split; [apply repeat_length |]. apply List.Forall_forall. intros x Hx. apply repeat_spec in Hx as ->. apply ok_in. lra. }
    specialize (H _ R). pose proof (Rabs_pos (f (repeat h k))). lra.
  Qed.
  Lemma nice_plus k f g : nice k f -> nice k g -> nice k (fun xs => f xs + g xs).
  Proof.
    intros [[M1 B1] [L1 [P1 C1]]] [[M2 B2] [L2 [P2 C2]]]. split.
    - exists (M1 + M2). intros xs R. eapply Rle_trans; [apply Rabs_triang |]. specialize (B1 xs R). specialize (B2 xs R). lra.
    - exists (L1 + L2). split; [lra |]. intros xs ys Rx Ry. specialize (C1 xs ys Rx Ry). specialize (C2 xs ys Rx Ry).
      replace (f xs + g xs - (f ys + g ys)) with ((f xs - f ys) + (g xs - g ys)) by ring.
      eapply Rle_trans; [apply Rabs_triang |]. lra.
  Qed.
  Lemma nice_mult k f g : nice k f -> nice k g -> nice k (fun xs => f xs * g xs).
  Proof.
    intros [[M1 B1] [L1 [P1 C1]]] [[M2 B2] [L2 [P2 C2]]].
    pose proof (bnd_pos k f M1 B1 ltac:(lra)) as Q1. pose proof (bnd_pos k g M2 B2 ltac:(lra)) as Q2. split.
    - exists (M1 * M2). intros xs R. rewrite Rabs_mult. apply Rmult_le_compat; try apply Rabs_pos; auto.
    - exists (M1 * L2 + M2 * L1). split; [nra |]. intros xs ys Rx Ry.
      replace (f xs * g xs - f ys * g ys) with (f xs * (g xs - g ys) + g ys * (f xs - f ys)) by ring.
      eapply Rle_trans; [apply Rabs_triang |]. rewrite !Rabs_mult, Rmult_plus_distr_r, !Rmult_assoc.
      apply Rplus_le_compat; apply Rmult_le_compat; try apply Rabs_pos; auto.
  Qed.
  Lemma nice_ext k f g : (forall xs, reg k xs -> f xs = g xs) -> nice k f -> nice k g.
  Proof.
    intros E [[M1 B1] [L1 [P1 C1]]]. split.
    - exists M1. intros xs R. rewrite <- (E xs R). auto.
    - exists L1. split; [exact P1 |]. intros xs ys Rx Ry. rewrite <- (E xs Rx), <- (E ys Ry). auto.
  Qed.
  Lemma nth_d1 : forall xs ys j, length xs = length ys -> Rabs (nth j xs 0 - nth j ys 0) <= d1 xs ys.
  Proof.
    induction xs as [|x xs IH]; intros [|y ys] j HL; try discriminate HL; cbn [d1].
    - destruct j; cbn; rewrite Rminus_eq_0, Rabs_R0; lra.
    - injection HL as HL. destruct j as [|j]; cbn [nth].
      + pose proof (d1_pos xs ys). lra.
      + pose proof (Rabs_pos (x - y)). specialize (IH ys j HL). lra.
  Qed.
  Lemma nth_ok k xs j : reg k xs -> (j < k)%nat -> ok (nth j xs 0).
  Proof. intros [H1 H2] Hj. apply (proj1 (List.Forall_forall _ _) H2). apply nth_In. lia. Qed.
  Lemma nice_nth k j : nice k (fun xs => nth j xs 0).
  Proof.
    split.
    - exists (h + l / 2). intros xs R. destruct (Nat.lt_ge_cases j k) as [Hj | Hj].
      + pose proof (nth_ok k xs j R Hj) as [P1 P2]. rewrite Rabs_pos_eq; lra.
      + destruct R as [R1 _]. rewrite nth_overflow by lia. rewrite Rabs_R0. lra.
    - exists 1. split; [lra |]. intros xs ys [Rx _] [Ry _]. rewrite Rmult_1_l. apply nth_d1. congruence.
  Qed.
  Lemma rsum_d1 : forall xs ys, length xs = length ys -> Rabs (rsum xs - rsum ys) <= d1 xs ys.
  Proof.
    induction xs as [|x xs IH]; intros [|y ys] HL; try discriminate HL; cbn [d1 rsum].
    - rewrite Rminus_eq_0, Rabs_R0; lra.
    - injection HL as HL. replace (x + rsum xs - (y + rsum ys)) with ((x - y) + (rsum xs - rsum ys)) by ring.
      eapply Rle_trans; [apply Rabs_triang |]. specialize (IH ys HL). lra.
  Qed.
  Lemma rsum_ge k xs : reg (S k) xs -> l / 2 < rsum xs.
  Proof.
    intros [HL H]. destruct xs as [|x xs]; [discriminate |]. inversion H as [|? ? [P _] H']; subst. cbn [rsum].
    assert (0 <= rsum xs); [| lra]. clear - H' Hl. induction H' as [|y ys [Hy _] _ IH]; cbn [rsum]; lra.
  Qed.
  Lemma nice_isum k : nice (S k) (fun xs => / rsum xs).
  Proof.
    split.
    - exists (/ (l / 2)). intros xs R. pose proof (rsum_ge k xs R). rewrite Rabs_pos_eq; [apply Rinv_le_contravar; lra |].
      left. apply Rinv_0_lt_compat. lra.
    - exists (/ (l / 2) * / (l / 2)). assert (0 < / (l / 2)) as P by (apply Rinv_0_lt_compat; lra). split; [nra |].
      intros xs ys Rx Ry. pose proof (rsum_ge k xs Rx) as X. pose proof (rsum_ge k ys Ry) as Y.
      replace (/ rsum xs - / rsum ys) with ((/ rsum xs * / rsum ys) * (rsum ys - rsum xs)) by (field; lra).
      rewrite Rabs_mult. apply Rmult_le_compat; try apply Rabs_pos.
      + rewrite Rabs_pos_eq.
        * apply Rmult_le_compat; try (left; apply Rinv_0_lt_compat; lra); apply Rinv_le_contravar; lra.
        * apply Rmult_le_pos; left; apply Rinv_0_lt_compat; lra.
      + rewrite Rabs_minus_sym. apply rsum_d1. destruct Rx as [-> _], Ry as [-> _]. reflexivity.
  Qed.
  Lemma nice_inth k j : (j < k)%nat -> nice k (fun xs => / nth j xs 0).
  Proof.
    intros Hj. split.
    - exists (/ (l / 2)). intros xs R. pose proof (nth_ok k xs j R Hj) as [P1 P2]. rewrite Rabs_pos_eq; [apply Rinv_le_contravar; lra |].
      left. apply Rinv_0_lt_compat. lra.
    - exists (/ (l / 2) * / (l / 2)). assert (0 < / (l / 2)) as P by (apply Rinv_0_lt_compat; lra). split; [nra |].
      intros xs ys Rx Ry. pose proof (nth_ok k xs j Rx Hj) as [X _]. pose proof (nth_ok k ys j Ry Hj) as [Y _].
      replace (/ nth j xs 0 - / nth j ys 0) with ((/ nth j xs 0 * / nth j ys 0) * (nth j ys 0 - nth j xs 0)) by (field; lra).
      rewrite Rabs_mult. apply Rmult_le_compat; try apply Rabs_pos.
      + rewrite Rabs_pos_eq.
        * apply Rmult_le_compat; try (left; apply Rinv_0_lt_compat; lra); apply Rinv_le_contravar; lra.
        * apply Rmult_le_pos; left; apply Rinv_0_lt_compat; lra.
      + rewrite Rabs_minus_sym. apply nth_d1. destruct Rx as [-> _], Ry as [-> _]. reflexivity.
  Qed.
  Lemma bnd_cons k f M x : ok x -> bnd (S k) f M -> bnd k (fun xs => f (x :: xs)) M.
  Proof. intros Hx H xs R. apply H. now apply reg_cons. Qed.
  Lemma lip_cons k f L x : ok x -> lip (S k) f L -> lip k (fun xs => f (x :: xs)) L.
  Proof.
    intros Hx [P H]. split; [exact P |]. intros xs ys Rx Ry.
    eapply Rle_trans; [apply H; now apply reg_cons |]. cbn [d1]. rewrite Rminus_eq_0, Rabs_R0. right. ring.
  Qed.
  Lemma nice_cons k f x : ok x -> nice (S k) f -> nice k (fun xs => f (x :: xs)).
  Proof. intros Hx [[M HM] [L HL]]. split; [exists M; now apply bnd_cons | exists L; now apply lip_cons]. Qed.
  Lemma lip_diff k f L x y : ok x -> ok y -> lip (S k) f L -> bnd k (fun xs => f (x :: xs) - f (y :: xs)) (L * Rabs (x - y)).
  Proof.
    intros Hx Hy [P H] xs R. eapply Rle_trans; [apply H; now apply reg_cons |]. cbn [d1]. rewrite d1_refl. right. ring.
  Qed.

  (** the integral is a positive linear functional *)
  Definition B1 (t : list R) : R := B t (fun _ => 1).
  Definition linear (t : list R) : Prop :=
    0 <= B1 t /\
    (forall f g, (forall xs, reg (length t) xs -> f xs = g xs) -> B t f = B t g) /\
    (forall f g c e, nice (length t) f -> nice (length t) g -> B t (fun xs => c * f xs + e * g xs) = c * B t f + e * B t g) /\
    (forall f M, nice (length t) f -> bnd (length t) f M -> Rabs (B t f) <= M * B1 t).

  Lemma inner_lip t f L x y : linear t -> nice (S (length t)) f -> lip (S (length t)) f L -> ok x -> ok y ->
    Rabs (B t (fun xs => f (x :: xs)) - B t (fun xs => f (y :: xs))) <= (L * B1 t) * Rabs (x - y).
  Proof.
    intros (P & E & LI & BD) HN HL Hx Hy.
    pose proof (nice_cons _ _ _ Hx HN) as N1. pose proof (nice_cons _ _ _ Hy HN) as N2.
    replace (B t (fun xs => f (x :: xs)) - B t (fun xs => f (y :: xs)))
      with (B t (fun xs => 1 * f (x :: xs) + (-1) * f (y :: xs))) by (rewrite LI by assumption; ring).
    replace ((L * B1 t) * Rabs (x - y)) with (L * Rabs (x - y) * B1 t) by ring. apply BD.
    - apply nice_plus; apply nice_mult; try assumption; apply nice_const.
    - intros xs R. replace (1 * f (x :: xs) + -1 * f (y :: xs)) with (f (x :: xs) - f (y :: xs)) by ring.
      exact (lip_diff _ f L x y Hx Hy HL xs R).
  Qed.
  Lemma near_ok x y : l <= x <= h -> Rabs (y - x) < l / 2 -> ok y.
  Proof. intros Hx Hy. apply Rabs_def2 in Hy. unfold ok. lra. Qed.
  Lemma inner_cont t f x : linear t -> nice (S (length t)) f -> l <= x <= h -> continuous (fun y => B t (fun xs => f (y :: xs))) x.
  Proof.
    intros HT HN Hx. pose proof HN as [_ [L HL]]. apply (lip_cont _ _ (L * B1 t) (l / 2)); [lra |].
    intros y Hy. apply inner_lip; try assumption; [now apply (near_ok x) | now apply ok_in].
  Qed.
  Lemma cont_ex (f : R -> R) : (forall x, l <= x <= h -> continuous f x) -> ex_RInt f l h.
  Proof. intros H. apply (ex_RInt_continuous f). intros x Hx. rewrite Rmin_left, Rmax_right in Hx by exact Hlh. now apply H. Qed.
  Lemma outer_ex a t f : linear t -> nice (S (length t)) f -> ex_RInt (fun x => gamma_weight a x * B t (fun xs => f (x :: xs))) l h.
  Proof.
    intros HT HN. apply cont_ex. intros x Hx. apply (continuous_mult (gamma_weight a)); [apply w_cont; lra |].
    now apply inner_cont.
  Qed.
  Definition G (a : R) : R := RInt (gamma_weight a) l h.
  Lemma w_ex a : ex_RInt (gamma_weight a) l h.
  Proof. apply cont_ex. intros x Hx. apply w_cont. lra. Qed.
  Lemma G_pos a : 0 <= G a.
  Proof. apply RInt_ge_0; [exact Hlh | apply w_ex |]. intros x _. left. apply w_pos. Qed.
  Lemma B1_cons a t : B1 (a :: t) = G a * B1 t.
  Proof.
    unfold B1. cbn [box_integral]. fold (B1 t). unfold G.
    rewrite (RInt_ext _ (fun x => B1 t * gamma_weight a x)) by (intros; apply Rmult_comm).
    rewrite rint_scal by apply w_ex. apply Rmult_comm.
  Qed.
  Lemma B1_pos t : 0 <= B1 t.
  Proof.
    induction t as [|a t IH]; [unfold B1; cbn; lra |]. rewrite B1_cons. apply Rmult_le_pos; [apply G_pos | exact IH].
  Qed.
  Lemma G_scal c a : RInt (fun x => c * gamma_weight a x) l h = c * G a.
  Proof. exact (rint_scal (gamma_weight a) c l h (w_ex a)). Qed.
  Lemma all_linear t : linear t.
  Proof.
    induction t as [|a t IH]; (split; [apply B1_pos |]).
    - cbn. assert (reg 0 []) as R by (split; [reflexivity | constructor]). repeat split.
      + intros f g E. now apply E.
      + intros f M _ HM. rewrite Rmult_1_r. now apply HM.
    - cbn [length]. pose proof IH as (P & E & LI & BD). split; [| split].
      + intros f g EE. cbn [box_integral]. apply rint_ext; [exact Hlh |]. intros x Hx.
        f_equal. apply E. intros xs R. apply EE. apply reg_cons; [apply ok_in; lra | exact R].
      + intros f g c e Nf Ng. cbn [box_integral].
        pose proof (outer_ex a t f IH Nf) as E1. pose proof (outer_ex a t g IH Ng) as E2.
        rewrite (rint_ext _ (fun x => c * (gamma_weight a x * B t (fun xs => f (x :: xs))) +
                                        e * (gamma_weight a x * B t (fun xs => g (x :: xs)))) l h Hlh).
        * rewrite rint_plus by (apply ex_scal; assumption).
          rewrite !rint_scal by assumption. reflexivity.
        * intros x Hx.
          rewrite (LI (fun xs => f (x :: xs)) (fun xs => g (x :: xs))) by (apply nice_cons; [apply ok_in; lra | assumption]). ring.
      + intros f M Nf HM. cbn [box_integral]. rewrite B1_cons.
        pose proof (outer_ex a t f IH Nf) as E1.
        rewrite (Rmult_comm (G a)), <- Rmult_assoc, <- G_scal.
        apply rint_abs_le; [exact Hlh | exact E1 | apply ex_scal, w_ex |].
        intros x Hx. rewrite Rabs_mult, (Rabs_pos_eq (gamma_weight a x)) by (left; apply w_pos). rewrite Rmult_comm.
        apply Rmult_le_compat_r; [left; apply w_pos |]. apply BD.
        * apply nice_cons; [now apply ok_in | exact Nf].
        * apply bnd_cons; [now apply ok_in | exact HM].
  Qed.
  Lemma B_ext t f g : (forall xs, reg (length t) xs -> f xs = g xs) -> B t f = B t g.
  Proof. apply (all_linear t). Qed.
  Lemma B_lin t f g c e : nice (length t) f -> nice (length t) g -> B t (fun xs => c * f xs + e * g xs) = c * B t f + e * B t g.
  Proof. apply (all_linear t). Qed.
  Lemma B_bnd t f M : nice (length t) f -> bnd (length t) f M -> Rabs (B t f) <= M * B1 t.
  Proof. apply (all_linear t). Qed.

  (** ** Integration by parts in one coordinate *)
  Definition der (k j : nat) (f Df : list R -> R) : Prop :=
    forall pre x post, length pre = j -> reg k (pre ++ x :: post) ->
      is_derive (fun y => f (pre ++ y :: post)) x (Df (pre ++ x :: post)).
  Definition delta (a : R) : R := (Rpower h a * exp (- h) + Rpower l a * exp (- l)) / G a.

  Lemma der_quad k f Df L x y : der (S k) 0 f Df -> lip (S k) Df L -> ok x -> ok y ->
    bnd k (fun xs => f (y :: xs) - f (x :: xs) - (y - x) * Df (x :: xs)) (L * (y - x)²).
  Proof.
    intros HD [PL HL] Hx Hy xs R.
    assert (forall z, Rmin x y <= z <= Rmax x y -> ok z) as HZ.
    { intros z Hz. unfold Rmin, Rmax in Hz. unfold ok in *. destruct (Rle_dec x y); lra. }
    destruct (MVT_gen (fun z => f (z :: xs)) x y (fun z => Df (z :: xs))) as (c & Hc & Ec).
    - intros z Hz. apply (HD [] z xs); [reflexivity |]. cbn [app]. apply reg_cons; [| exact R]. apply HZ. lra.
    - intros z Hz. apply continuity_pt_filterlim, (ex_derive_continuous (fun z => f (z :: xs))). eexists. apply (HD [] z xs); [reflexivity |].
      cbn [app]. apply reg_cons; [now apply HZ | exact R].
    - rewrite Ec. replace (Df (c :: xs) * (y - x) - (y - x) * Df (x :: xs)) with ((Df (c :: xs) - Df (x :: xs)) * (y - x)) by ring.
      rewrite Rabs_mult, Rsqr_abs. unfold Rsqr. rewrite <- Rmult_assoc. apply Rmult_le_compat_r; [apply Rabs_pos |].
      eapply Rle_trans; [apply HL; apply reg_cons; [now apply HZ | exact R | exact Hx | exact R] |].
      cbn [d1]. rewrite d1_refl, Rplus_0_r. apply Rmult_le_compat_l; [exact PL |].
      unfold Rmin, Rmax in Hc. destruct (Rle_dec x y).
      + rewrite !Rabs_pos_eq by lra. lra.
      + rewrite !Rabs_left1 by lra. lra.
  Qed.
  Lemma nice_minus k f g : nice k f -> nice k g -> nice k (fun xs => f xs - g xs).
  Proof.
    intros Hf Hg. apply (nice_ext k (fun xs => f xs + (-1) * g xs)); [intros; ring |].
    apply nice_plus; [exact Hf |]. apply nice_mult; [apply nice_const | exact Hg].
  Qed.
  Lemma inner_der t f Df x : nice (S (length t)) f -> nice (S (length t)) Df -> der (S (length t)) 0 f Df -> l <= x <= h ->
    is_derive (fun y => B t (fun xs => f (y :: xs))) x (B t (fun xs => Df (x :: xs))).
  Proof.
    intros Nf ND HD Hx. pose proof ND as [_ [L HL]].
    apply (derive_quad _ _ _ (L * B1 t) (l / 2)); [lra |]. intros y Hy. cbv beta.
    pose proof (near_ok x y Hx Hy) as Oy. pose proof (ok_in x Hx) as Ox.
    pose proof (nice_cons _ _ _ Ox Nf) as N1. pose proof (nice_cons _ _ _ Oy Nf) as N2. pose proof (nice_cons _ _ _ Ox ND) as N3.
    assert (B t (fun xs => f (y :: xs) - f (x :: xs) - (y - x) * Df (x :: xs))
            = B t (fun xs => f (y :: xs)) - B t (fun xs => f (x :: xs)) - (y - x) * B t (fun xs => Df (x :: xs))) as EQ.
    { rewrite (B_ext t _ (fun xs => 1 * (1 * f (y :: xs) + (-1) * f (x :: xs)) + (- (y - x)) * Df (x :: xs))) by (intros; ring).
      rewrite B_lin.
      + rewrite B_lin by assumption. ring.
      + apply nice_plus; apply nice_mult; try apply nice_const; assumption.
      + assumption. }
    eapply Rle_trans; [apply Req_le, f_equal; symmetry; exact EQ |].
    replace (L * B1 t * (y - x)²) with (L * (y - x)² * B1 t) by ring. apply B_bnd.
    + apply nice_minus; [now apply nice_minus |]. apply nice_mult; [apply nice_const | exact N3].
    + now apply der_quad.
  Qed.
  Lemma nice_stein k j a f Df : nice k f -> nice k Df -> nice k (fun xs => (nth j xs 0 - a) * f xs - nth j xs 0 * Df xs).
  Proof.
    intros Nf ND. apply nice_minus; apply nice_mult; try assumption; try apply nice_nth.
    apply nice_minus; [apply nice_nth | apply nice_const].
  Qed.
  Lemma stein0 a t f Df M : l < h -> nice (S (length t)) f -> nice (S (length t)) Df -> der (S (length t)) 0 f Df -> bnd (S (length t)) f M ->
    Rabs (B (a :: t) (fun xs => (nth 0 xs 0 - a) * f xs - nth 0 xs 0 * Df xs)) <= M * delta a * B1 (a :: t).
  Proof.
    intros Hlt Nf ND HD HM.
    set (phi := fun x => B t (fun xs => f (x :: xs))). set (dphi := fun x => B t (fun xs => Df (x :: xs))).
    assert (is_RInt (fun x => gamma_weight a x * ((a - x) * phi x + x * dphi x)) l h
              (Rpower h a * exp (- h) * phi h - Rpower l a * exp (- l) * phi l)) as HI.
    { apply (is_RInt_derive (V := R_CompleteNormedModule) (fun x => Rpower x a * exp (- x) * phi x)
               (fun x => gamma_weight a x * ((a - x) * phi x + x * dphi x))).
      - intros x Hx. rewrite Rmin_left, Rmax_right in Hx by exact Hlh.
        replace (gamma_weight a x * ((a - x) * phi x + x * dphi x))
          with ((gamma_weight a x * (a - x)) * phi x + (Rpower x a * exp (- x)) * dphi x) by (rewrite <- w_mul by lra; ring).
        apply (is_derive_mult (fun y => Rpower y a * exp (- y)) phi x); [apply w_der; lra | now apply inner_der | intros; apply Rmult_comm].
      - intros x Hx. rewrite Rmin_left, Rmax_right in Hx by exact Hlh.
        apply (continuous_mult (gamma_weight a)); [apply w_cont; lra |].
        apply (continuous_plus (V := R_NormedModule)).
        + apply (continuous_mult (fun x => a - x) phi); [| now apply inner_cont; [apply all_linear | |]].
          apply (continuous_minus (V := R_NormedModule)); [apply continuous_const | apply continuous_id].
        + apply (continuous_mult (fun x : R => x) dphi); [apply continuous_id | now apply inner_cont; [apply all_linear | |]]. }
    assert (B (a :: t) (fun xs => (nth 0 xs 0 - a) * f xs - nth 0 xs 0 * Df xs)
            = - (Rpower h a * exp (- h) * phi h - Rpower l a * exp (- l) * phi l)) as ->.
    { pose proof (is_RInt_unique _ _ _ _ HI : RInt (fun x => gamma_weight a x * ((a - x) * phi x + x * dphi x)) l h = _) as E.
      pose proof (rint_scal (fun x => gamma_weight a x * ((a - x) * phi x + x * dphi x)) (-1) l h (ex_intro _ _ HI)) as E2.
      rewrite E in E2. cbn [box_integral]. etransitivity; [| etransitivity; [exact E2 | ring]].
      apply rint_ext; [exact Hlh |]. intros x Hx.
      cbn [nth].
      assert (ok x) as Ox by (apply ok_in; lra).
      rewrite (B_ext t _ (fun xs => (x - a) * f (x :: xs) + (- x) * Df (x :: xs))) by (intros; ring).
      rewrite B_lin by (now apply nice_cons). fold (phi x) (dphi x). ring. }
    rewrite Rabs_Ropp, B1_cons. unfold delta.
    assert (0 < G a) as PG.
    { apply RInt_gt_0; [exact Hlt | intros; apply w_pos | intros; apply w_cont; lra]. }
    replace (M * ((Rpower h a * exp (- h) + Rpower l a * exp (- l)) / G a) * (G a * B1 t))
      with (Rpower h a * exp (- h) * (M * B1 t) + Rpower l a * exp (- l) * (M * B1 t)) by (field; lra).
    assert (forall x, l <= x <= h -> Rabs (phi x) <= M * B1 t) as HP.
    { intros x Hx. apply B_bnd; [apply nice_cons; [now apply ok_in | exact Nf] | apply bnd_cons; [now apply ok_in | exact HM]]. }
    assert (forall x, 0 < Rpower x a * exp (- x)) as PW by (intros x; apply Rmult_lt_0_compat; apply exp_pos).
    eapply Rle_trans; [apply Rabs_triang |]. rewrite Rabs_Ropp, !(Rabs_mult (_ * exp _)).
    rewrite !(Rabs_pos_eq (_ * exp _)) by (left; apply PW).
    apply Rplus_le_compat; apply Rmult_le_compat_l; try (left; apply PW); apply HP; lra.
  Qed.
  Lemma stein : forall shapes j f Df M, l < h -> (j < length shapes)%nat ->
    nice (length shapes) f -> nice (length shapes) Df -> der (length shapes) j f Df -> bnd (length shapes) f M ->
    Rabs (B shapes (fun xs => (nth j xs 0 - nth j shapes 0) * f xs - nth j xs 0 * Df xs)) <= M * delta (nth j shapes 0) * B1 shapes.
  Proof.
    induction shapes as [|a t IH]; intros j f Df M Hlt Hj Nf ND HD HM; [cbn in Hj; lia |].
    destruct j as [|j]; [now apply stein0 |]. cbn [length] in *.
    cbn [box_integral nth]. rewrite B1_cons. set (b := nth j t 0) in *.
    assert (nice (S (length t)) (fun xs => (nth (S j) xs 0 - b) * f xs - nth (S j) xs 0 * Df xs)) as NS by (now apply nice_stein).
    rewrite (Rmult_comm (G a)), <- Rmult_assoc, <- G_scal.
    apply rint_abs_le; [exact Hlh | | apply ex_scal, w_ex |].
    - apply (outer_ex a t (fun xs => (nth (S j) xs 0 - b) * f xs - nth (S j) xs 0 * Df xs)); [apply all_linear | exact NS].
    - intros x Hx. rewrite Rabs_mult, (Rabs_pos_eq (gamma_weight a x)) by (left; apply w_pos). rewrite Rmult_comm.
      apply Rmult_le_compat_r; [left; apply w_pos |].
      pose proof (ok_in x Hx) as Ox.
      apply (IH j (fun xs => f (x :: xs)) (fun xs => Df (x :: xs)) M Hlt); [lia | now apply nice_cons | now apply nice_cons | | now apply bnd_cons].
      intros pre y post Hp R. apply (HD (x :: pre) y post); [cbn; now rewrite Hp |]. cbn [app]. now apply reg_cons.
  Qed.

  (** ** Products of normalised coordinates *)
  Definition share (i : nat) (xs : list R) : R := nth i xs 0 / rsum xs.
  Definition shares (is : list nat) (xs : list R) : R := fold_right (fun i r => share i xs * r) 1 is.
  Definition kron (i j : nat) : R := if Nat.eqb i j then 1 else 0.
  Definition dshare (j i : nat) (xs : list R) : R := (kron i j - share i xs) / rsum xs.
  Fixpoint dshares (j : nat) (is : list nat) (xs : list R) : R :=
    match is with [] => 0 | i :: t => dshare j i xs * shares t xs + share i xs * dshares j t xs end.
  Definition cnt (j : nat) (is : list nat) : R := rsum (map (fun i => kron i j) is).

  Lemma nice_share k i : nice (S k) (share i).
  Proof. unfold share, Rdiv. apply nice_mult; [apply nice_nth | apply nice_isum]. Qed.
  Lemma nice_shares k is : nice (S k) (shares is).
  Proof. induction is as [|i is IH]; cbn; [apply nice_const |]. apply nice_mult; [apply nice_share | exact IH]. Qed.
  Lemma nice_dshare k j i : nice (S k) (dshare j i).
  Proof.
    unfold dshare, Rdiv. apply nice_mult; [| apply nice_isum]. apply nice_minus; [apply nice_const | apply nice_share].
  Qed.
  Lemma nice_dshares k j is : nice (S k) (dshares j is).
  Proof.
    induction is as [|i is IH]; cbn; [apply nice_const |].
    apply nice_plus; apply nice_mult; [apply nice_dshare | apply nice_shares | apply nice_share | exact IH].
  Qed.
  Lemma share_01 k i xs : reg (S k) xs -> 0 <= share i xs <= 1.
  Proof.
    intros R. pose proof (rsum_ge k xs R) as S. destruct R as [_ F].
    assert (forall ys, List.Forall ok ys -> 0 <= nth i ys 0 <= rsum ys) as HH.
    { intros ys Fy. revert i. induction Fy as [|y ys [Hy _] Fy IH]; intros i; [destruct i; cbn; lra |].
      pose proof (IH 0%nat) as H0. destruct i as [|i]; cbn; [lra |]. specialize (IH i). lra. }
    specialize (HH xs F). unfold share. split.
    - apply Rmult_le_pos; [lra |]. left. apply Rinv_0_lt_compat. lra.
    - apply Rmult_le_reg_r with (rsum xs); [lra |]. unfold Rdiv. rewrite Rmult_assoc, Rinv_l by lra. lra.
  Qed.
  Lemma shares_01 k is xs : reg (S k) xs -> 0 <= shares is xs <= 1.
  Proof.
    intros R. induction is as [|i is IH]; cbn; [lra |]. pose proof (share_01 k i xs R) as H.
    fold (shares is xs). split; [nra |]. replace 1 with (1 * 1) by ring. apply Rmult_le_compat; lra.
  Qed.
  Lemma shares_bnd k is : bnd (S k) (shares is) 1.
  Proof. intros xs R. pose proof (shares_01 k is xs R). rewrite Rabs_pos_eq; lra. Qed.

  Lemma nth_mid (pre post : list R) i y : nth i (pre ++ y :: post) 0 = nth i (pre ++ 0 :: post) 0 + kron i (length pre) * y.
  Proof.
    unfold kron. revert i. induction pre as [|x pre IH]; intros [|i]; cbn; try ring. apply IH.
  Qed.
  Lemma rsum_mid (pre post : list R) y : rsum (pre ++ y :: post) = rsum (pre ++ 0 :: post) + y.
  Proof. induction pre as [|x pre IH]; cbn; [ring |]. rewrite IH. ring. Qed.
  Lemma der_share k j i : der (S k) j (share i) (dshare j i).
  Proof.
    intros pre x post Hp R. pose proof (rsum_ge k _ R) as S. unfold share, dshare.
    rewrite rsum_mid in S |- *. unfold share. rewrite rsum_mid, nth_mid, Hp. set (c := nth i (pre ++ 0 :: post) 0). set (s := rsum (pre ++ 0 :: post)) in *.
    apply (is_derive_ext (fun y => (c + kron i j * y) / (s + y))).
    { intros y. rewrite rsum_mid, nth_mid, Hp. reflexivity. }
    auto_derive; [lra |]. field. lra.
  Qed.
  Lemma der_shares k j is : der (S k) j (shares is) (dshares j is).
  Proof.
    induction is as [|i is IH]; intros pre x post Hp R; cbn.
    - apply (is_derive_const (V := R_NormedModule)).
    - apply (is_derive_mult (fun y => share i (pre ++ y :: post)) (fun y => shares is (pre ++ y :: post)) x
               (dshare j i (pre ++ x :: post)) (dshares j is (pre ++ x :: post))).
      + now apply (der_share k j i).
      + now apply IH.
      + intros; apply Rmult_comm.
  Qed.
  Lemma dshares_euler k j is xs : reg (S k) xs ->
    nth j xs 0 * dshares j is xs = (cnt j is - INR (length is) * share j xs) * shares is xs.
  Proof.
    intros R. pose proof (rsum_ge k xs R) as S. induction is as [|i is IH].
    - cbn. ring.
    - cbn [dshares]. unfold cnt. cbn [map rsum]. fold (cnt j is). cbn [length]. rewrite S_INR.
      unfold shares. cbn [fold_right]. fold (shares is xs).
      replace (nth j xs 0 * (dshare j i xs * shares is xs + share i xs * dshares j is xs))
        with (nth j xs 0 * dshare j i xs * shares is xs + share i xs * (nth j xs 0 * dshares j is xs)) by ring.
      rewrite IH.
      assert (nth j xs 0 * dshare j i xs = share i xs * (kron i j - share j xs)) as ->; [| ring].
      unfold dshare. replace (nth j xs 0 * ((kron i j - share i xs) / rsum xs)) with (share j xs * (kron i j - share i xs))
        by (unfold share, Rdiv; ring).
      unfold kron. destruct (Nat.eqb_spec i j) as [-> | _]; ring.
  Qed.

  Lemma rsum_map_ext {A} (f g : A -> R) js : (forall j, In j js -> f j = g j) -> rsum (map f js) = rsum (map g js).
  Proof. intros H. induction js as [|j js IH]; cbn; [reflexivity |]. rewrite (H j), IH; [reflexivity | |]; intros; [apply H; now right | now left]. Qed.
  Lemma rsum_nth xs : rsum (map (fun j => nth j xs 0) (seq 0 (length xs))) = rsum xs.
  Proof.
    induction xs as [|x xs IH]; cbn; [reflexivity |]. f_equal. rewrite <- seq_shift, map_map. exact IH.
  Qed.
  Lemma rsum_scal {A} (f : A -> R) c js : rsum (map (fun j => c * f j) js) = c * rsum (map f js).
  Proof. induction js as [|j js IH]; cbn; [ring |]. rewrite IH. ring. Qed.
  Lemma rsum_add {A} (f g : A -> R) js : rsum (map (fun j => f j + g j) js) = rsum (map f js) + rsum (map g js).
  Proof. induction js as [|j js IH]; cbn; [ring |]. rewrite IH. ring. Qed.
  Lemma rsum_kron i n : forall m, (m <= i < m + n)%nat -> rsum (map (fun j => kron i j) (seq m n)) = 1.
  Proof.
    induction n as [|n IH]; intros m Hi; [lia |]. cbn. unfold kron at 1. destruct (Nat.eqb_spec i m) as [-> | Hne].
    - assert (forall p q, (m < p)%nat -> rsum (map (fun j => kron m j) (seq p q)) = 0) as HH.
      { intros p q. revert p. induction q as [|q IHq]; intros p Hp; cbn; [reflexivity |]. rewrite IHq by lia. unfold kron.
        destruct (Nat.eqb_spec m p); [lia | ring]. }
      rewrite HH by lia. ring.
    - rewrite IH by lia. ring.
  Qed.
  Lemma cnt_total n is : List.Forall (fun i => (i < n)%nat) is -> rsum (map (fun j => cnt j is) (seq 0 n)) = INR (length is).
  Proof.
    intros H. induction H as [|i is Hi _ IH].
    - cbn [length INR]. unfold cnt. cbn [map rsum]. induction (seq 0 n) as [|? ? IHs]; cbn; [reflexivity | rewrite IHs; ring].
    - cbn [length]. rewrite S_INR. unfold cnt. cbn [map rsum]. rewrite rsum_add, rsum_kron by lia.
      fold (cnt). unfold cnt in IH. rewrite IH. ring.
  Qed.
  Lemma B_sum t (F : nat -> list R -> R) js : (forall j, nice (length t) (F j)) ->
    B t (fun xs => rsum (map (fun j => F j xs) js)) = rsum (map (fun j => B t (F j)) js) /\
    nice (length t) (fun xs => rsum (map (fun j => F j xs) js)).
  Proof.
    intros HF. induction js as [|j js [IH1 IH2]].
    - cbn. split; [| apply nice_const].
      rewrite (B_ext t _ (fun _ => 0 * 1 + 0 * 1)) by (intros; ring). rewrite (B_lin t (fun _ => 1) (fun _ => 1)) by apply nice_const. ring.
    - cbn. split; [| apply nice_plus; [apply HF | exact IH2]].
      rewrite (B_ext t _ (fun xs => 1 * F j xs + 1 * rsum (map (fun j => F j xs) js))) by (intros; ring).
      rewrite B_lin by (apply HF || exact IH2). rewrite IH1. ring.
  Qed.

  (** One more draw multiplies the mean by the urn proportion, up to the boundary terms. *)
  Lemma urn_box shapes i is : l < h -> (i < length shapes)%nat -> List.Forall (fun i => (i < length shapes)%nat) is ->
    Rabs ((rsum shapes + INR (length is)) * B shapes (shares (i :: is)) - (nth i shapes 0 + cnt i is) * B shapes (shares is))
      <= (delta (nth i shapes 0) + rsum (map (fun j => delta (nth j shapes 0)) (seq 0 (length shapes)))) * B1 shapes.
  Proof.
    intros Hlt Hi His. set (n := length shapes) in *.
    destruct n as [|k] eqn:En; [lia |]. unfold n in En.
    set (g := shares is). set (pg := shares (i :: is)).
    assert (forall f Df j, nice (S k) f -> nice (S k) Df -> der (S k) j f Df -> bnd (S k) f 1 -> (j < S k)%nat ->
       Rabs (B shapes (fun xs => (nth j xs 0 - nth j shapes 0) * f xs - nth j xs 0 * Df xs)) <= delta (nth j shapes 0) * B1 shapes) as ST.
    { intros f Df j H1 H2 H3 H4 H5. rewrite <- (Rmult_1_l (delta _)). apply stein; rewrite ?En; assumption. }
    pose proof (ST g (dshares i is) i (nice_shares k is) (nice_dshares k i is) (der_shares k i is) (shares_bnd k is) Hi) as S1.
    assert (forall j, (j < S k)%nat -> Rabs (B shapes (fun xs => (nth j xs 0 - nth j shapes 0) * pg xs - nth j xs 0 * dshares j (i :: is) xs))
              <= delta (nth j shapes 0) * B1 shapes) as S2.
    { intros j Hj. apply ST; [apply nice_shares | apply nice_dshares | apply der_shares | apply shares_bnd | exact Hj]. }
    set (T := fun j xs => (nth j xs 0 - nth j shapes 0) * pg xs - nth j xs 0 * dshares j (i :: is) xs) in *.
    assert (forall j, nice (length shapes) (T j)) as NT.
    { intros j. rewrite En. apply nice_stein; [apply nice_shares | apply nice_dshares]. }
    destruct (B_sum shapes T (seq 0 (S k)) NT) as [ES NS].
    assert (Rabs (rsum (map (fun j => B shapes (T j)) (seq 0 (S k)))) <= rsum (map (fun j => delta (nth j shapes 0)) (seq 0 (S k))) * B1 shapes) as S3.
    { assert (forall js, (forall j, In j js -> (j < S k)%nat) ->
        Rabs (rsum (map (fun j => B shapes (T j)) js)) <= rsum (map (fun j => delta (nth j shapes 0)) js) * B1 shapes) as HH.
      { induction js as [|j js IH]; intros Hjs; cbn [map rsum]; [rewrite Rabs_R0; lra |].
        eapply Rle_trans; [apply Rabs_triang |]. specialize (S2 j (Hjs j (or_introl eq_refl))).
        specialize (IH (fun j' Hj' => Hjs j' (or_intror Hj'))). fold (T j) in S2. lra. }
      apply HH. intros j Hj. apply in_seq in Hj. lia. }
    rewrite <- ES in S3.
    set (W1 := fun xs => (nth i xs 0 - nth i shapes 0) * g xs - nth i xs 0 * dshares i is xs) in *.
    set (W2 := fun xs => rsum (map (fun j => T j xs) (seq 0 (S k)))) in *.
    assert (nice (length shapes) W1) as N1.
    { rewrite En. apply nice_stein; [apply nice_shares | apply nice_dshares]. }
    replace ((rsum shapes + INR (length is)) * B shapes pg - (nth i shapes 0 + cnt i is) * B shapes g)
      with (B shapes W1 - B shapes W2).
    { eapply Rle_trans; [apply Rabs_triang |]. rewrite Rabs_Ropp. lra. }
    assert (nice (length shapes) pg) as Np by (rewrite En; apply nice_shares).
    assert (nice (length shapes) g) as Ng by (rewrite En; apply nice_shares).
    transitivity (B shapes (fun xs => (rsum shapes + INR (length is)) * pg xs + (- (nth i shapes 0 + cnt i is)) * g xs)).
    2: { rewrite B_lin by assumption. ring. }
    transitivity (B shapes (fun xs => 1 * W1 xs + (-1) * W2 xs)).
    { rewrite B_lin by assumption. ring. }
    apply B_ext. intros xs R. rewrite En in R. pose proof (rsum_ge k xs R) as SP.
    assert (pg xs = share i xs * g xs) as Hpg by reflexivity.
    assert (W1 xs = nth i xs 0 * g xs - nth i shapes 0 * g xs - cnt i is * g xs + INR (length is) * pg xs) as ->.
    { unfold W1. rewrite (dshares_euler k i is xs R), Hpg. fold g. ring. }
    assert (W2 xs = nth i xs 0 * g xs - rsum shapes * pg xs) as ->; [| ring].
    unfold W2, T.
    rewrite (rsum_map_ext _ (fun j => (pg xs * nth j xs 0 + - pg xs * nth j shapes 0) +
                                       (- pg xs * cnt j (i :: is) + pg xs * INR (length (i :: is)) * / rsum xs * nth j xs 0))).
    2: { intros j _. rewrite (dshares_euler k j (i :: is) xs R). fold pg. unfold share at 1, Rdiv. ring. }
    rewrite !rsum_add, !rsum_scal.
    pose proof (rsum_nth xs) as Q1. rewrite (proj1 R) in Q1.
    pose proof (rsum_nth shapes) as Q2. rewrite En in Q2.
    pose proof (cnt_total (S k) (i :: is) ltac:(constructor; assumption)) as Q3.
    rewrite Q1, Q2, Q3.
    rewrite Hpg. unfold share. field. lra.
  Qed.
End Box.

(** ** Growing boxes *)
Definition lo (n : nat) : R := / INR (S n).
Definition hi (n : nat) : R := INR (S n).
Lemma lo_pos n : 0 < lo n.
Proof. apply Rinv_0_lt_compat, lt_0_INR. lia. Qed.
Lemma lo_hi n : lo n <= hi n.
Proof.
  unfold lo, hi. assert (1 <= INR (S n)) as H by (rewrite S_INR; pose proof (pos_INR n); lra).
  apply Rle_trans with 1; [| exact H]. rewrite <- Rinv_1. apply Rinv_le_contravar; lra.
Qed.
Lemma lo_le n : (1 <= n)%nat -> lo n <= /2 /\ 2 <= hi n.
Proof.
  intros Hn. apply le_INR in Hn. cbn in Hn. unfold lo, hi. rewrite S_INR. split; [apply Rinv_le_contravar; lra | lra].
Qed.
Lemma lo_lt n : (1 <= n)%nat -> lo n < hi n.
Proof. intros Hn. destruct (lo_le n Hn). lra. Qed.

Lemma G_mono n a : (1 <= n)%nat -> G (/2) 2 a <= G (lo n) (hi n) a.
Proof.
  intros Hn. destruct (lo_le n Hn) as [H1 H2]. pose proof (lo_pos n) as HP. unfold G.
  assert (forall x y, 0 < x -> x <= y -> ex_RInt (gamma_weight a) x y) as EX by (intros; now apply w_ex).
  assert (forall x y, 0 < x -> x <= y -> 0 <= RInt (gamma_weight a) x y) as PX by (intros; now apply G_pos).
  pose proof (RInt_Chasles (gamma_weight a) (lo n) (/2) (hi n) (EX _ _ HP H1) (EX (/2) (hi n) ltac:(lra) ltac:(lra))) as C1.
  pose proof (RInt_Chasles (gamma_weight a) (/2) 2 (hi n) (EX (/2) 2 ltac:(lra) ltac:(lra)) (EX 2 (hi n) ltac:(lra) H2)) as C2.
  change (RInt (gamma_weight a) (lo n) (/2) + RInt (gamma_weight a) (/2) (hi n) = RInt (gamma_weight a) (lo n) (hi n)) in C1.
  change (RInt (gamma_weight a) (/2) 2 + RInt (gamma_weight a) 2 (hi n) = RInt (gamma_weight a) (/2) (hi n)) in C2.
  pose proof (PX (lo n) (/2) HP H1). pose proof (PX 2 (hi n) ltac:(lra) H2). lra.
Qed.
Lemma G_half a : 0 < G (/2) 2 a.
Proof. apply RInt_gt_0; [lra | intros; apply w_pos | intros; apply w_cont; lra]. Qed.
Lemma G_gt n a : (1 <= n)%nat -> 0 < G (lo n) (hi n) a.
Proof. intros Hn. pose proof (G_mono n a Hn). pose proof (G_half a). lra. Qed.
Lemma B1_gt n t : (1 <= n)%nat -> 0 < B1 (lo n) (hi n) t.
Proof.
  intros Hn. induction t as [|a t IH]; [unfold B1; cbn; lra |].
  rewrite B1_cons by (apply lo_pos || apply lo_hi). apply Rmult_lt_0_compat; [now apply G_gt | exact IH].
Qed.
Lemma hi_lim : is_lim_seq hi p_infty.
Proof. apply (is_lim_seq_incr_1 INR). apply is_lim_seq_INR. Qed.
Lemma ln_over : is_lim_seq (fun n => ln (hi n) / hi n) 0.
Proof.
  apply (is_lim_comp_seq (fun y => ln y / y) hi p_infty 0 is_lim_div_ln_p); [| apply hi_lim].
  exists 0%nat. intros n _. discriminate.
Qed.
Lemma exp_m (u : nat -> R) : is_lim_seq u m_infty -> is_lim_seq (fun n => exp (u n)) 0.
Proof.
  intros H. apply (is_lim_comp_seq exp u m_infty 0 is_lim_exp_m); [| exact H].
  exists 0%nat. intros n _. discriminate.
Qed.
Lemma top_lim a : is_lim_seq (fun n => Rpower (hi n) a * exp (- hi n)) 0.
Proof.
  apply (is_lim_seq_ext (fun n => exp (hi n * (a * (ln (hi n) / hi n) - 1)))).
  { intros n. unfold Rpower. rewrite <- exp_plus. f_equal. field. pose proof (lo_pos n) as H. unfold lo in H. unfold hi.
    apply not_0_INR. lia. }
  apply exp_m.
  assert (is_lim_seq (fun n => a * (ln (hi n) / hi n) - 1) (Finite (a * 0 - 1))) as H.
  { apply is_lim_seq_minus'; [| apply is_lim_seq_const]. exact (is_lim_seq_scal_l _ a 0 ln_over). }
  assert (a * 0 - 1 < 0) as Q by (rewrite Rmult_0_r; lra).
  eapply is_lim_seq_mult; [apply hi_lim | exact H |].
  unfold is_Rbar_mult, Rbar_mult'. destruct (Rle_dec 0 (a * 0 - 1)); [exfalso; lra | reflexivity].
Qed.
Lemma bot_lim a : 0 < a -> is_lim_seq (fun n => Rpower (lo n) a * exp (- lo n)) 0.
Proof.
  intros Ha. apply (is_lim_seq_le_le (fun _ => 0) _ (fun n => Rpower (lo n) a)).
  - intros n. assert (0 < Rpower (lo n) a) as P by apply exp_pos. pose proof (exp_pos (- lo n)).
    assert (exp (- lo n) <= 1) as Q. { rewrite <- exp_0. left. apply exp_increasing. pose proof (lo_pos n). lra. }
    split; nra.
  - apply is_lim_seq_const.
  - unfold Rpower. apply exp_m. apply (is_lim_seq_ext (fun n => (- a) * ln (hi n))).
    { intros n. unfold lo, hi. rewrite ln_Rinv by (apply lt_0_INR; lia). ring. }
    assert (is_lim_seq (fun n => ln (hi n)) p_infty) as HL.
    { apply (is_lim_comp_seq ln hi p_infty p_infty is_lim_ln_p); [| apply hi_lim]. exists 0%nat. intros n _. discriminate. }
    eapply is_lim_seq_mult; [apply is_lim_seq_const | exact HL |].
    unfold is_Rbar_mult, Rbar_mult'. destruct (Rle_dec 0 (- a)); [exfalso; lra | reflexivity].
Qed.

Lemma delta_lim a : 0 < a -> is_lim_seq (fun n => delta (lo n) (hi n) a) 0.
Proof.
  intros Ha. pose proof (G_half a) as GP.
  apply (is_lim_seq_le_le_loc (fun _ => 0) _ (fun n => / G (/2) 2 a * (Rpower (hi n) a * exp (- hi n) + Rpower (lo n) a * exp (- lo n)))).
  - exists 1%nat. intros n Hn. unfold delta.
    assert (forall x, 0 < Rpower x a * exp (- x)) as PW by (intros x; apply Rmult_lt_0_compat; apply exp_pos).
    pose proof (PW (hi n)) as Q1. pose proof (PW (lo n)) as Q2. pose proof (G_gt n a Hn) as Q3. pose proof (G_mono n a Hn) as Q4.
    split.
    + apply Rmult_le_pos; [lra |]. left. now apply Rinv_0_lt_compat.
    + unfold Rdiv. rewrite Rmult_comm. apply Rmult_le_compat_r; [lra |]. now apply Rinv_le_contravar.
  - apply is_lim_seq_const.
  - replace (Finite 0) with (Rbar_mult (/ G (/2) 2 a) (Finite (0 + 0))) by (cbn; f_equal; ring).
    apply is_lim_seq_scal_l. apply is_lim_seq_plus'; [apply top_lim | now apply bot_lim].
Qed.

(** The chance of drawing the colours of [is], from the last one to the first, from an urn that starts with the
    given amounts and gains one of each colour drawn. *)
Fixpoint urn (shapes : list R) (is : list nat) : R :=
  match is with [] => 1 | i :: t => (nth i shapes 0 + cnt i t) / (rsum shapes + INR (length t)) * urn shapes t end.

Lemma rsum_nonneg xs : List.Forall (fun a => 0 < a) xs -> 0 <= rsum xs.
Proof. intros H. induction H as [|x xs Hx _ IH]; cbn; lra. Qed.
Lemma sum_lim (f : nat -> nat -> R) js : (forall j, In j js -> is_lim_seq (f j) 0) -> is_lim_seq (fun n => rsum (map (fun j => f j n) js)) 0.
Proof.
  intros H. induction js as [|j js IH]; cbn [map rsum]; [apply is_lim_seq_const |].
  replace (Finite 0) with (Finite (0 + 0)) by (f_equal; ring). apply is_lim_seq_plus'; [apply H; now left | apply IH; intros j' Hj'; apply H; now right].
Qed.
Theorem dirichlet_moments shapes is :
  List.Forall (fun a => 0 < a) shapes -> List.Forall (fun i => (i < length shapes)%nat) is ->
  gamma_mean shapes (shares is) (urn shapes is).
Proof.
  intros HS. unfold gamma_mean. change (fun n => box_integral (/ INR (S n)) (INR (S n)) shapes (shares is) / box_integral (/ INR (S n)) (INR (S n)) shapes (fun _ => 1))
    with (fun n => box_integral (lo n) (hi n) shapes (shares is) / B1 (lo n) (hi n) shapes).
  induction is as [|i is IH]; intros His.
  - cbn [urn]. apply (is_lim_seq_ext_loc (fun _ => 1)); [| apply is_lim_seq_const].
    exists 1%nat. intros n Hn. unfold shares; cbn [fold_right]. pose proof (B1_gt n shapes Hn) as P. unfold B1 in *. field. lra.
  - inversion His as [|? ? Hi His']; subst. specialize (IH His'). cbn [urn].
    set (c := rsum shapes + INR (length is)). set (r := nth i shapes 0 + cnt i is).
    assert (0 < c) as Pc.
    { unfold c. pose proof (pos_INR (length is)). destruct HS as [|a t Ha Ht]; [cbn in Hi; lia |]. cbn [rsum].
      pose proof (rsum_nonneg t Ht). lra. }
    set (E := fun n f => box_integral (lo n) (hi n) shapes f / B1 (lo n) (hi n) shapes).
    set (D := fun n => delta (lo n) (hi n) (nth i shapes 0) + rsum (map (fun j => delta (lo n) (hi n) (nth j shapes 0)) (seq 0 (length shapes)))).
    assert (is_lim_seq D 0) as LD.
    { unfold D. replace (Finite 0) with (Finite (0 + 0)) by (f_equal; ring). apply is_lim_seq_plus'.
      - apply delta_lim. apply (proj1 (List.Forall_forall _ _) HS). now apply nth_In.
      - apply (sum_lim (fun j n => delta (lo n) (hi n) (nth j shapes 0))). intros j Hj. apply in_seq in Hj.
        apply delta_lim. apply (proj1 (List.Forall_forall _ _) HS). apply nth_In. lia. }
    assert (is_lim_seq (fun n => E n (shares (i :: is)) - r / c * E n (shares is)) 0) as LU.
    { apply is_lim_seq_abs_0. apply (is_lim_seq_le_le_loc (fun _ => 0) _ (fun n => / c * D n)).
      - exists 1%nat. intros n Hn. split; [apply Rabs_pos |].
        pose proof (urn_box (lo n) (hi n) (lo_pos n) (lo_hi n) shapes i is (lo_lt n Hn) Hi His') as U.
        fold c r (D n) in U. pose proof (B1_gt n shapes Hn) as P.
        replace (E n (shares (i :: is)) - r / c * E n (shares is))
          with ((/ c * / B1 (lo n) (hi n) shapes) * (c * box_integral (lo n) (hi n) shapes (shares (i :: is)) - r * box_integral (lo n) (hi n) shapes (shares is)))
          by (unfold E; field; lra).
        assert (0 < / c * / B1 (lo n) (hi n) shapes) as P2 by (apply Rmult_lt_0_compat; now apply Rinv_0_lt_compat).
        rewrite Rabs_mult, (Rabs_pos_eq (/ c * _)) by lra.
        apply Rle_trans with (/ c * / B1 (lo n) (hi n) shapes * (D n * B1 (lo n) (hi n) shapes)); [now apply Rmult_le_compat_l; [lra |] |].
        right. field. lra.
      - apply is_lim_seq_const.
      - replace (Finite 0) with (Rbar_mult (/ c) 0) by (cbn; f_equal; ring). now apply is_lim_seq_scal_l. }
    apply (is_lim_seq_ext (fun n => (E n (shares (i :: is)) - r / c * E n (shares is)) + r / c * E n (shares is))).
    { intros n. unfold E. ring. }
    replace (Finite (r / c * urn shapes is)) with (Finite (0 + r / c * urn shapes is)) by (f_equal; ring).
    apply is_lim_seq_plus'; [exact LU |]. exact (is_lim_seq_scal_l _ (r / c) (urn shapes is) IH).
Qed.
