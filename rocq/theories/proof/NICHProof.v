From Coq Require Import Permutation Reals Lra.
From Verif.model Require Import Base Num NumR Component NICH.
From Verif.spec Require Import GroupSpec GaussSpec.
From Verif.proof Require Import BaseProof GroupProof BBProof.
Local Open Scope R_scope.

Lemma rsum_app a b : rsum (a ++ b) = rsum a + rsum b.
Proof. induction a as [|x a IH]; cbn [app rsum]; [lra|]. rewrite IH. lra. Qed.
Lemma rsum_perm a b : Permutation a b -> rsum a = rsum b.
Proof. induction 1; cbn [rsum]; lra. Qed.
Definition rsq (l : list R) : R := rsum (map Rsqr l).

Lemma rsum_shift l c : rsum (map (fun x => (x - c)²) l) = rsq l - 2 * c * rsum l + INR (length l) * c².
Proof.
  induction l as [|x l IH]; unfold rsq in *; cbn [map rsum length]; [simpl; unfold Rsqr; lra|].
  rewrite IH. rewrite S_INR. unfold Rsqr. lra.
Qed.

Lemma rmean_eq l : l <> [] -> rmean l = rsum l / INR (length l).
Proof. destruct l; [congruence|reflexivity]. Qed.
Lemma len_pos {A} (l : list A) : l <> [] -> 0 < INR (length l).
Proof. destruct l; [congruence|]. intros _. cbn [length]. apply lt_0_INR. lia. Qed.

Lemma ssd_alt l : l <> [] -> ssd l = rsq l - (rsum l)² / INR (length l).
Proof.
  intro H. unfold ssd. rewrite rsum_shift, (rmean_eq l H). pose proof (len_pos l H) as P.
  unfold Rsqr. field. lra.
Qed.
Lemma ssd_nil : ssd [] = 0. Proof. reflexivity. Qed.

Lemma rmean_perm l l' : Permutation l l' -> rmean l = rmean l'.
Proof.
  intro P. destruct l as [|x l].
  - now rewrite (Permutation_nil P).
  - assert (l' <> []) by (intros ->; apply Permutation_sym, Permutation_nil in P; discriminate).
    rewrite !rmean_eq by (assumption || discriminate). now rewrite (Permutation_length P), (rsum_perm _ _ P).
Qed.
Lemma ssd_perm l l' : Permutation l l' -> ssd l = ssd l'.
Proof.
  intro P. unfold ssd. rewrite (rmean_perm _ _ P). apply rsum_perm. now apply Permutation_map.
Qed.

Definition nich_stat (l : list R) : nich_group R := mk_nich (Z.of_nat (length l)) (rmean l) (ssd l).

Lemma nich_stat_perm l l' : Permutation l l' -> nich_stat l = nich_stat l'.
Proof. intro P. unfold nich_stat. now rewrite (Permutation_length P), (rmean_perm _ _ P), (ssd_perm _ _ P). Qed.

Section NICH.
  Variable lg : R -> R.
  Let NR : Num R := NumR lg.
  Existing Instance NR.
  Variables (dl : nat) (sh : nich_shared R).
  Notation NIR := (NICH R (N:=NR)).

  Lemma nich_eq c m v c' m' v' : c = c' -> m = m' -> v = v' -> @Ok (nich_group R) (mk_nich c m v) = Ok (mk_nich c' m' v').
  Proof. now intros -> -> ->. Qed.

  Lemma IZRn n : IZR (Z.of_nat n) = INR n. Proof. symmetry. apply INR_IZR_INZ. Qed.

  Lemma nich_init_stat : c_init NIR sh = nich_stat [].
  Proof. cbn. unfold nich_init, nich_stat. cbn. unfold ssd. cbn. unfold Rdiv. now rewrite Rmult_0_l. Qed.

  Lemma nich_add_stat (l : list R) (v : R) : short (v :: l) -> c_add NIR dl sh (nich_stat l) v = Ok (nich_stat (v :: l)).
  Proof.
    unfold short. cbn [length]. intro H. cbn [c_rem c_add c_merge c_rep NICH]. unfold nich_add, nich_stat.
    cbn [ni_count ni_mean ni_ctv length].
    rewrite i32_ok by (unfold i32_min, i32_max; lia). cbn [obind].
    replace (Z.of_nat (length l) + 1)%Z with (Z.of_nat (S (length l))) by lia.
    assert (M : rmean l + (v - rmean l) / INR (S (length l)) = rmean (v :: l)).
    { rewrite (rmean_eq (v :: l)) by discriminate. cbn [length rsum].
      pose proof (len_pos (v :: l) ltac:(discriminate)) as P. cbn [length] in P.
      destruct l as [|x l].
      - cbn. field.
      - rewrite (rmean_eq (x :: l)) by discriminate.
        pose proof (len_pos (x :: l) ltac:(discriminate)) as P'.
        set (n := length (x :: l)) in *. rewrite S_INR in *. field. lra. }
    apply nich_eq; [reflexivity| |]; cbn -[IZR INR rmean ssd rsum length Z.of_nat]; rewrite IZRn.
    - exact M.
    - rewrite M. rewrite (ssd_alt (v :: l)) by discriminate. rewrite (rmean_eq (v :: l)) by discriminate.
      unfold rsq. cbn [length map rsum].
      pose proof (len_pos (v :: l) ltac:(discriminate)) as P. cbn [length] in P.
      destruct l as [|x l].
      + rewrite ssd_nil. cbn. unfold Rsqr. field.
      + rewrite (ssd_alt (x :: l)) by discriminate. rewrite (rmean_eq (x :: l)) by discriminate.
        fold (rsq (x :: l)). pose proof (len_pos (x :: l) ltac:(discriminate)) as P'.
        set (n := length (x :: l)) in *. rewrite S_INR in *.
        unfold Rsqr. field. lra.
  Qed.

  Lemma nich_rem_stat (l : list R) (v : R) : short (v :: l) -> c_rem NIR dl sh (nich_stat (v :: l)) v = Ok (nich_stat l).
  Proof.
    unfold short. cbn [length]. intro H. cbn [c_rem c_add c_merge c_rep NICH]. unfold nich_rem, nich_stat.
    cbn [ni_count ni_mean ni_ctv length].
    replace (0 <? Z.of_nat (S (length l)))%Z with true by (symmetry; apply Z.ltb_lt; lia).
    cbn [dassert obind].
    replace (Z.of_nat (S (length l)) - 1)%Z with (Z.of_nat (length l)) by lia.
    rewrite i32_ok by (unfold i32_min, i32_max; lia). cbn [obind].
    pose proof (len_pos (v :: l) ltac:(discriminate)) as P. cbn [length] in P.
    destruct l as [|x l].
    { cbn. apply nich_eq; [reflexivity| |]; unfold ssd; cbn; unfold Rdiv; apply Rmult_0_l. }
    pose proof (len_pos (x :: l) ltac:(discriminate)) as P'.
    replace (Z.of_nat (length (x :: l)) =? 0)%Z with false by (symmetry; apply Z.eqb_neq; cbn [length]; lia).
    assert (M : (rmean (v :: x :: l) * IZR (Z.of_nat (S (length (x :: l)))) - v) / IZR (Z.of_nat (length (x :: l)))
                = rmean (x :: l)).
    { rewrite !rmean_eq by discriminate. rewrite !IZRn. cbn [rsum].
      change (length (v :: x :: l)) with (S (length (x :: l))).
      set (n := length (x :: l)) in *. rewrite S_INR in *. field. lra. }
    apply nich_eq; [reflexivity|exact M|].
    destruct (Z.leb_spec (Z.of_nat (length (x :: l))) 1) as [L|L].
    - destruct l as [|y l]; [|cbn [length] in L; lia].
      unfold ssd. cbn. unfold Rsqr. field.
    - cbn -[IZR INR rmean ssd rsum length Z.of_nat]. rewrite M.
      rewrite !ssd_alt, !rmean_eq by discriminate.
      change (length (v :: x :: l)) with (S (length (x :: l))).
      change (rsq (v :: x :: l)) with (v² + rsq (x :: l)).
      change (rsum (v :: x :: l)) with (v + rsum (x :: l)).
      set (n := length (x :: l)) in *. set (s := rsum (x :: l)). set (q := rsq (x :: l)).
      rewrite S_INR in *. unfold Rsqr. field. lra.
  Qed.

  Lemma nich_merge_stat (l ys : list R) : nich_op l (GMerge ys) -> short (ys ++ l) ->
    c_merge NIR dl sh (nich_stat l) (nich_stat ys) = Ok (nich_stat (ys ++ l)).
  Proof.
    unfold short, nich_op. intros Hne H. rewrite app_length in H.
    cbn [c_rem c_add c_merge c_rep NICH]. unfold nich_merge, nich_stat. cbn [ni_count ni_mean ni_ctv].
    rewrite i32_ok by (unfold i32_min, i32_max; lia). cbn [obind]. unfold sqr.
    cbn -[IZR INR rmean ssd rsum length Z.of_nat].
    assert (Hn : (0 < length ys + length l)%nat).
    { pose proof (app_length ys l). destruct (ys ++ l); [congruence|cbn [length] in *; lia]. }
    assert (Pn : 0 < INR (length ys + length l)) by (apply lt_0_INR; lia).
    assert (En : IZR (Z.of_nat (length l) + Z.of_nat (length ys)) = INR (length ys + length l)).
    { rewrite <- Nat2Z.inj_add, IZRn. f_equal. lia. }
    rewrite En, !IZRn, plus_INR in *.
    destruct l as [|x l].
    - rewrite app_nil_r in *. cbn [length INR] in *. replace (rmean []) with 0 by reflexivity. rewrite ssd_nil.
      apply nich_eq; [lia| |].
      + field. lra.
      + unfold Rsqr. field. lra.
    - destruct ys as [|y ys].
      + cbn [app length INR] in *. replace (rmean []) with 0 by reflexivity. rewrite ssd_nil.
        apply nich_eq; [cbn [length]; lia| |]; field; lra.
      + assert (Pa : 0 < INR (length (x :: l))) by (apply len_pos; discriminate).
        assert (Pb : 0 < INR (length (y :: ys))) by (apply len_pos; discriminate).
        assert (N0 : (y :: ys) ++ x :: l <> []) by discriminate.
        rewrite (ssd_alt ((y :: ys) ++ x :: l) N0), (rmean_eq ((y :: ys) ++ x :: l) N0).
        rewrite !ssd_alt, !rmean_eq by discriminate.
        rewrite app_length, plus_INR, rsum_app.
        replace (rsq ((y :: ys) ++ x :: l)) with (rsq (y :: ys) + rsq (x :: l))
          by (unfold rsq; rewrite map_app, rsum_app; reflexivity).
        set (n := INR (length (x :: l))) in *. set (m := INR (length (y :: ys))) in *.
        set (s := rsum (x :: l)). set (t := rsum (y :: ys)).
        set (q := rsq (x :: l)). set (p := rsq (y :: ys)).
        apply nich_eq; [lia| |].
        * field. lra.
        * unfold Rsqr. field. lra.
  Qed.

  Lemma nich_history ops l : ghistory nich_op short [] ops l ->
    grun NIR dl sh (c_init NIR sh) ops = Ok (nich_stat l).
  Proof.
    apply (grun_init NIR dl sh nich_stat nich_op short).
    - exact nich_init_stat. - exact nich_stat_perm. - unfold short; cbn; lia.
    - exact short_perm. - exact short_tail. - exact nich_add_stat. - exact nich_rem_stat.
    - intros l0 v n []. - exact nich_merge_stat.
  Qed.
  Lemma nich_filled l : short l -> c_filled NIR dl sh l = Ok (nich_stat l).
  Proof.
    apply (filled_stat NIR dl sh nich_stat short).
    - exact nich_init_stat. - exact nich_stat_perm. - exact short_perm. - exact short_tail. - exact nich_add_stat.
  Qed.

  (** add_repeated_value: right from the empty group or for a single copy. *)
  Lemma ssd_repeat v n : ssd (repeat v n) = 0.
  Proof.
    destruct n as [|n]; [reflexivity|].
    assert (E : rmean (repeat v (S n)) = v).
    { rewrite rmean_eq by discriminate. rewrite repeat_length.
      assert (G : forall k, rsum (repeat v k) = INR k * v).
      { induction k as [|k IH]; [simpl; lra|]. rewrite S_INR. cbn [repeat rsum]. rewrite IH. lra. }
      rewrite G. field. apply not_0_INR. lia. }
    unfold ssd. rewrite E. generalize (S n). intro k. induction k as [|k IH]; cbn [repeat map rsum]; [reflexivity|].
    rewrite IH. unfold Rsqr. lra.
  Qed.
  Lemma nich_rep_empty (v : R) n : (0 < n)%nat -> short (repeat v n) ->
    c_rep NIR dl sh (nich_stat []) v (Z.of_nat n) = Ok (nich_stat (repeat v n)).
  Proof.
    intros Hn H. unfold short in H. rewrite repeat_length in H.
    cbn [c_rem c_add c_merge c_rep NICH]. unfold nich_rep, nich_stat. cbn [ni_count ni_mean ni_ctv length].
    rewrite i32_ok by (unfold i32_min, i32_max; lia). cbn [obind]. rewrite repeat_length.
    cbn -[IZR INR rmean ssd rsum length Z.of_nat]. change (Z.of_nat 0 + Z.of_nat n)%Z with (Z.of_nat n).
    rewrite IZRn. assert (Pn : INR n <> 0) by (apply not_0_INR; lia).
    assert (E : rmean (repeat v n) = v).
    { destruct n as [|n]; [lia|]. rewrite rmean_eq by discriminate. rewrite repeat_length.
      assert (G : forall k, rsum (repeat v k) = INR k * v).
      { induction k as [|k IH]; [simpl; lra|]. rewrite S_INR. cbn [repeat rsum]. rewrite IH. lra. }
      rewrite G. now field. }
    apply nich_eq; [reflexivity| |].
    - rewrite E. replace (rmean []) with 0 by reflexivity. now field.
    - rewrite ssd_repeat, ssd_nil. replace (rmean []) with 0 by reflexivity. now field.
  Qed.
  Lemma nich_rep_one g v : c_rep NIR dl sh g v 1 = c_add NIR dl sh g v.
  Proof. cbn. unfold nich_rep, nich_add. cbn. rewrite Rmult_1_l. reflexivity. Qed.
  Lemma rsum_repeat (v : R) k : rsum (repeat v k) = INR k * v.
  Proof. induction k as [|k IH]; [simpl; lra|]. rewrite S_INR. cbn [repeat rsum]. rewrite IH. lra. Qed.
  Lemma nich_rep_error (l : list R) (v : R) n : (0 < n)%nat -> short (repeat v n ++ l) ->
    exists g r t, c_filled NIR dl sh l = Ok g /\ c_rep NIR dl sh g v (Z.of_nat n) = Ok r /\
      c_adds NIR dl sh g (repeat v n) = Ok t /\ ni_count r = ni_count t /\
      ni_mean r = ni_mean t + INR (n - 1) * rmean l / INR (length l + n).
  Proof.
    intros Hn H. assert (Hl : short l).
    { unfold short in *. rewrite app_length in H. lia. }
    exists (nich_stat l). do 2 eexists. split; [now apply nich_filled|]. split.
    { cbn [c_rep NICH]. unfold nich_rep. cbn [nich_stat ni_count].
      unfold short in H. rewrite app_length, repeat_length in H.
      rewrite i32_ok by (unfold i32_min, i32_max; lia). cbn [obind]. reflexivity. }
    split.
    { apply (adds_stat NIR dl sh nich_stat short).
      - exact nich_stat_perm. - exact short_perm. - exact short_tail. - exact nich_add_stat. - exact H. }
    cbn [nich_stat ni_count ni_mean]. rewrite app_length, repeat_length.
    split; [rewrite Nat2Z.inj_add; apply Z.add_comm|].
    cbn [nof nlit nadd nsub nmul ndiv NR NumR].
    rewrite <- Nat2Z.inj_add, !IZRn. cbn [value_t NICH] in *.
    assert (P : 0 < INR (length l + n)) by (apply lt_0_INR; lia).
    rewrite (rmean_eq (repeat v n ++ l)) by (destruct n; [lia|discriminate]).
    rewrite app_length, repeat_length, rsum_app, rsum_repeat. rewrite (Nat.add_comm n).
    rewrite minus_INR by lia. cbn [INR].
    assert (E : rsum l = INR (length l) * rmean l).
    { destruct l as [|x l]; [cbn; lra|]. rewrite rmean_eq by discriminate. field.
      apply Rgt_not_eq. apply len_pos. discriminate. }
    rewrite E. rewrite plus_INR in *. field. lra.
  Qed.
End NICH.
