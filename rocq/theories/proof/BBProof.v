From Coq Require Import Permutation.
From Verif.model Require Import Base Num Component BB.
From Verif.spec Require Import GroupSpec.
From Verif.proof Require Import BaseProof GroupProof.

(** Group statistics. *)
Definition bb_stat (l : list bool) : bb_group :=
  mk_bb (Z.of_nat (count_occ Bool.bool_dec l true)) (Z.of_nat (count_occ Bool.bool_dec l false)).

Lemma short_perm {A} (l l' : list A) : Permutation l l' -> short l -> short l'.
Proof. unfold short. intros P. now rewrite (Permutation_length P). Qed.
Lemma short_tail {A} (v : A) l : short (v :: l) -> short l.
Proof. unfold short. cbn [length]. lia. Qed.

Lemma count_le l v : (count_occ Bool.bool_dec l v <= length l)%nat.
Proof. apply count_occ_bound. Qed.

Section BB.
  Context {F : Type} {N : Num F}.
  Variables (dl : nat) (sh : bb_shared F).

  Lemma bb_add_stat l v : short (v :: l) -> c_add (BB F) dl sh (bb_stat l) v = Ok (bb_stat (v :: l)).
  Proof.
    unfold short. intro H. cbn. unfold bb_add, bb_bump, bb_stat.
    pose proof (count_le (v :: l) true) as A. pose proof (count_le (v :: l) false) as B.
    cbn [length] in *. 
    destruct v; cbn [count_occ bb_heads bb_tails Bool.bool_dec bool_rec bool_rect] in *.
    - rewrite i32_ok by (unfold i32_min, i32_max; lia). cbn [obind]. f_equal. f_equal. lia.
    - rewrite i32_ok by (unfold i32_min, i32_max; lia). cbn [obind]. f_equal. f_equal. lia.
  Qed.

  Lemma bb_rem_stat l v : short (v :: l) -> c_rem (BB F) dl sh (bb_stat (v :: l)) v = Ok (bb_stat l).
  Proof.
    unfold short. intro H. cbn. unfold bb_rem, bb_bump, bb_stat.
    pose proof (count_le l true) as A. pose proof (count_le l false) as B.
    cbn [length] in *. 
    destruct v; cbn [count_occ bb_heads bb_tails Bool.bool_dec bool_rec bool_rect] in *.
    - rewrite i32_ok by (unfold i32_min, i32_max; lia). cbn [obind]. f_equal. f_equal. lia.
    - rewrite i32_ok by (unfold i32_min, i32_max; lia). cbn [obind]. f_equal. f_equal. lia.
  Qed.

  Lemma bb_rep_stat l v n : short (repeat v n ++ l) ->
    c_rep (BB F) dl sh (bb_stat l) v (Z.of_nat n) = Ok (bb_stat (repeat v n ++ l)).
  Proof.
    unfold short. intro H. cbn. unfold bb_rep, bb_bump, bb_stat. rewrite !count_occ_app.
    pose proof (count_le l true) as A. pose proof (count_le l false) as B.
    rewrite app_length, repeat_length in H. 
    destruct v; cbn [bb_heads bb_tails].
    - rewrite count_occ_repeat_same, count_occ_repeat_ne by discriminate.
      rewrite i32_ok by (unfold i32_min, i32_max; lia). cbn [obind]. f_equal. f_equal; lia.
    - rewrite count_occ_repeat_same, count_occ_repeat_ne by discriminate.
      rewrite i32_ok by (unfold i32_min, i32_max; lia). cbn [obind]. f_equal. f_equal; lia.
  Qed.

  Lemma bb_merge_stat l ys : short (ys ++ l) ->
    c_merge (BB F) dl sh (bb_stat l) (bb_stat ys) = Ok (bb_stat (ys ++ l)).
  Proof.
    unfold short. intro H. cbn. unfold bb_merge, bb_stat. rewrite !count_occ_app.
    pose proof (count_le l true) as A. pose proof (count_le l false) as B.
    pose proof (count_le ys true) as A'. pose proof (count_le ys false) as B'.
    rewrite app_length in H.  cbn [bb_heads bb_tails].
    rewrite !i32_ok by (unfold i32_min, i32_max; lia). cbn [obind]. f_equal. f_equal; lia.
  Qed.

  Lemma bb_stat_perm l l' : Permutation l l' -> bb_stat l = bb_stat l'.
  Proof. intro P. unfold bb_stat. now rewrite !(count_occ_perm _ l l' _ P). Qed.

  Lemma bb_history ops l : ghistory any_op short [] ops l ->
    grun (BB F) dl sh (c_init (BB F) sh) ops = Ok (bb_stat l).
  Proof.
    apply (grun_init (BB F) dl sh bb_stat any_op short); try reflexivity.
    - exact bb_stat_perm. - unfold short; cbn; lia.
    - exact short_perm. - exact short_tail. - exact bb_add_stat. - exact bb_rem_stat.
    - intros l0 v n _. apply bb_rep_stat. - intros l0 ys _. apply bb_merge_stat.
  Qed.

  Lemma bb_filled l : short l -> c_filled (BB F) dl sh l = Ok (bb_stat l).
  Proof.
    apply (filled_stat (BB F) dl sh bb_stat short); try reflexivity.
    - exact bb_stat_perm. - exact short_perm. - exact short_tail. - exact bb_add_stat.
  Qed.
End BB.
