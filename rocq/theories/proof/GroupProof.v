(** Generic: statistics that satisfy one law per call describe the group after any history. *)
From Coq Require Import Permutation Reals Lra.
From Verif.model Require Import Base Component.
From Verif.spec Require Import GroupSpec.

Section Generic.
  Variables (C : component) (dl : nat) (sh : shared_t C).
  Notation V := (value_t C).
  Variable stat : list V -> group_t C.
  Variable ok : list V -> gop V -> Prop.
  Variable fits : list V -> Prop.
  Hypothesis Hinit : c_init C sh = stat [].
  Hypothesis Hperm : forall l l', Permutation l l' -> stat l = stat l'.
  Hypothesis Fnil : fits [].
  Hypothesis Fperm : forall l l', Permutation l l' -> fits l -> fits l'.
  Hypothesis Ftail : forall v l, fits (v :: l) -> fits l.
  Hypothesis Hadd : forall l v, fits (v :: l) -> c_add C dl sh (stat l) v = Ok (stat (v :: l)).
  Hypothesis Hrem : forall l v, fits (v :: l) -> c_rem C dl sh (stat (v :: l)) v = Ok (stat l).
  Hypothesis Hrep : forall l v n, ok l (GRep v n) -> fits (repeat v n ++ l) ->
    c_rep C dl sh (stat l) v (Z.of_nat n) = Ok (stat (repeat v n ++ l)).
  Hypothesis Hmerge : forall l ys, ok l (GMerge ys) -> fits (ys ++ l) ->
    c_merge C dl sh (stat l) (stat ys) = Ok (stat (ys ++ l)).

  Lemma fits_app l1 l2 : fits (l1 ++ l2) -> fits l2.
  Proof. induction l1 as [|a l1 IH]; simpl; auto. intro H. apply IH. eapply Ftail, H. Qed.

  Lemma adds_stat ys : forall l, fits (ys ++ l) -> c_adds C dl sh (stat l) ys = Ok (stat (ys ++ l)).
  Proof.
    induction ys as [|y ys IH]; intros l F; simpl; [reflexivity|].
    assert (P : Permutation (y :: ys ++ l) (ys ++ y :: l)) by apply Permutation_middle.
    assert (F' : fits (ys ++ y :: l)) by (apply (Fperm _ _ P), F).
    rewrite Hadd by (eapply fits_app, F'). simpl. rewrite (IH (y :: l) F').
    f_equal. apply Hperm. now apply Permutation_sym.
  Qed.

  Lemma filled_stat l : fits l -> c_filled C dl sh l = Ok (stat l).
  Proof.
    intro F. unfold c_filled. rewrite Hinit. rewrite adds_stat; rewrite app_nil_r; auto.
  Qed.

  Lemma grun1_stat o l m : fits l -> fits m -> ok l o -> gstep l o m -> grun1 C dl sh (stat l) o = Ok (stat m).
  Proof.
    intros F1 F2 O H. destruct H as [l v|l1 v l2|l v n|l ys]; simpl.
    - now apply Hadd.
    - rewrite (Hperm (l1 ++ v :: l2) (v :: l1 ++ l2)) by (apply Permutation_sym, Permutation_middle).
      apply Hrem. apply (Fperm (l1 ++ v :: l2)); [apply Permutation_sym, Permutation_middle|assumption].
    - now apply Hrep.
    - rewrite filled_stat; [simpl; now apply Hmerge|].
      apply (fits_app l). apply (Fperm (ys ++ l)); [apply Permutation_app_comm|exact F2].
  Qed.

  Lemma grun_stat ops : forall l l', fits l -> ghistory ok fits l ops l' -> grun C dl sh (stat l) ops = Ok (stat l').
  Proof.
    induction ops as [|o ops IH]; intros l l' F H; inversion H; subst; simpl; [reflexivity|].
    erewrite grun1_stat by eauto. simpl. eapply IH; eauto.
  Qed.

  Lemma grun_init ops l : ghistory ok fits [] ops l -> grun C dl sh (c_init C sh) ops = Ok (stat l).
  Proof. intro H. rewrite Hinit. now apply grun_stat. Qed.

  (** Chain rule from one step. *)
  Lemma chain_stat (score : shared_t C -> group_t C -> V -> outcome R) (sd : group_t C -> R) :
    (forall k v, fits (v :: k) -> score sh (stat k) v = Ok (sd (stat (v :: k)) - sd (stat k))%R) ->
    forall l k, fits (l ++ k) ->
    c_chain C dl sh 0%R Rplus score (stat k) l = Ok (sd (stat (l ++ k)) - sd (stat k))%R.
  Proof.
    intro Hs. induction l as [|v l IH]; intros k Fk; simpl.
    - f_equal. lra.
    - assert (P : Permutation (v :: l ++ k) (l ++ v :: k)) by apply Permutation_middle.
      assert (F' : fits (l ++ v :: k)) by (apply (Fperm _ _ P), Fk).
      rewrite Hs by (eapply fits_app, F'). simpl. rewrite Hadd by (eapply fits_app, F'). simpl.
      rewrite IH by exact F'. simpl. f_equal. rewrite <- (Hperm _ _ P). lra.
  Qed.
End Generic.

Lemma zsum_app a b : zsum (a ++ b) = (zsum a + zsum b)%Z.
Proof. induction a as [|x a IH]; cbn [app zsum]; lia. Qed.
Lemma zsum_perm a b : Permutation a b -> zsum a = zsum b.
Proof. induction 1; cbn [zsum]; lia. Qed.
Lemma zsum_repeat v n : zsum (repeat v n) = (Z.of_nat n * v)%Z.
Proof. induction n as [|n IH]; cbn [repeat zsum]; lia. Qed.

Lemma count_occ_perm {A} (dec : forall x y : A, {x = y} + {x <> y}) l l' x :
  Permutation l l' -> count_occ dec l x = count_occ dec l' x.
Proof.
  induction 1 as [|y l l' _ IH|y z l|l l' l'' _ IH1 _ IH2]; simpl; auto.
  - rewrite IH. reflexivity.
  - destruct (dec y x), (dec z x); reflexivity.
  - congruence.
Qed.
Lemma count_occ_repeat_same {A} (dec : forall x y : A, {x = y} + {x <> y}) v n : count_occ dec (repeat v n) v = n.
Proof. induction n as [|n IH]; simpl; auto. destruct (dec v v); congruence. Qed.
Lemma count_occ_repeat_ne {A} (dec : forall x y : A, {x = y} + {x <> y}) v w n : v <> w -> count_occ dec (repeat v n) w = 0.
Proof. intro H. induction n as [|n IH]; simpl; auto. destruct (dec v w); congruence. Qed.

(** uint32 arithmetic *)
Lemma u32_add_l a b : u32 (u32 a + b) = u32 (a + b).
Proof. unfold u32. apply Zplus_mod_idemp_l. Qed.
Lemma u32_add_r a b : u32 (a + u32 b) = u32 (a + b).
Proof. unfold u32. apply Zplus_mod_idemp_r. Qed.
Lemma u32_sub_l a b : u32 (u32 a - b) = u32 (a - b).
Proof. unfold u32. apply Zminus_mod_idemp_l. Qed.
Lemma u32_mul_l a b : u32 (u32 a * b) = u32 (a * b).
Proof. unfold u32. apply Zmult_mod_idemp_l. Qed.
Lemma u32_small a : (0 <= a < 4294967296)%Z -> u32 a = a.
Proof. apply Z.mod_small. Qed.

Lemma ghistory_fits {V} (ok : list V -> gop V -> Prop) (fits : list V -> Prop) l ops l' :
  fits l -> ghistory ok fits l ops l' -> fits l'.
Proof. intros F H. revert F. induction H; auto. Qed.
