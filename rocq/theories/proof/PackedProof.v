From Verif.model Require Import Base Packed.
From Verif.proof Require Import BaseProof.
From Coq Require Import Permutation.

Lemma last_or_inner {A} (l : list A) p a : nth_error l p = Some a ->
  (exists pre, l = pre ++ [a] /\ length pre = p) \/
  (exists pre mid z, l = pre ++ a :: mid ++ [z] /\ length pre = p).
Proof.
  intro H. destruct (split_nth_error _ _ _ H) as (pre & post & -> & <-).
  destruct post as [|z mid _] using rev_ind; [left; eauto|right; eauto].
Qed.

Lemma packed_remove_last {A} dl (pre : list A) a :
  packed_remove dl (pre ++ [a]) (length pre) = Ok pre.
Proof.
  unfold packed_remove. rewrite dassert_at_true
    by (apply Nat.ltb_lt; rewrite app_length; simpl; lia). cbn [obind].
  replace (length (pre ++ [a]) - 1) with (length pre) by (rewrite app_length; simpl; lia).
  rewrite vget_app; cbn [obind]. rewrite vset_app; cbn [obind].
  now rewrite removelast_last.
Qed.

Lemma packed_remove_inner {A} dl (pre : list A) a mid z :
  packed_remove dl (pre ++ a :: mid ++ [z]) (length pre) = Ok (pre ++ z :: mid).
Proof.
  unfold packed_remove. rewrite dassert_at_true
    by (apply Nat.ltb_lt; rewrite app_length; simpl; lia). cbn [obind].
  replace (vget (pre ++ a :: mid ++ [z]) (length (pre ++ a :: mid ++ [z]) - 1)) with (Ok z).
  2:{ rewrite (app_assoc pre (a :: mid) [z] : pre ++ a :: mid ++ [z] = _).
      rewrite <- (vget_app (pre ++ a :: mid) z []). f_equal.
      rewrite (app_length _ [z]); simpl; lia. }
  cbn [obind]. rewrite vset_app; cbn [obind].
  rewrite (app_assoc pre (z :: mid) [z] : pre ++ z :: mid ++ [z] = _).
  now rewrite removelast_last.
Qed.

Lemma packed_remove_spec {A} dl (l : list A) pos a : nth_error l pos = Some a ->
  exists l', packed_remove dl l pos = Ok l' /\ Permutation l (a :: l') /\
    S (length l') = length l /\
    (forall i, i <> pos -> i < length l' -> nth_error l' i = nth_error l i) /\
    (pos < length l' -> nth_error l' pos = nth_error l (length l - 1)).
Proof.
  intro H. destruct (last_or_inner _ _ _ H) as [(pre & -> & <-)|(pre & mid & z & -> & <-)].
  - exists pre. rewrite packed_remove_last. split; [reflexivity|].
    split; [rewrite <- Permutation_cons_append; reflexivity|].
    rewrite app_length; simpl. split; [lia|]. split; [|lia].
    intros i Hi Hl. now rewrite nth_error_app1.
  - exists (pre ++ z :: mid). rewrite packed_remove_inner. split; [reflexivity|].
    split; [|split; [|split]].
    + rewrite <- (Permutation_cons_append mid z), <- Permutation_middle.
      reflexivity.
    + repeat (rewrite app_length; simpl). lia.
    + intros i Hi. rewrite app_length; simpl. intro Hl.
      destruct (Nat.lt_trichotomy i (length pre)) as [Hc|[Hc|Hc]]; [|lia|].
      * rewrite !nth_error_app1 by lia. reflexivity.
      * rewrite !(nth_error_app2 pre) by lia.
        replace (i - length pre) with (S (i - S (length pre))) by lia. simpl.
        rewrite nth_error_app1 by lia. reflexivity.
    + intros _. rewrite nth_error_app2, Nat.sub_diag by lia. simpl.
      rewrite (app_assoc pre (a :: mid) [z] : pre ++ a :: mid ++ [z] = _).
      rewrite nth_error_app2 by (rewrite (app_length _ [z]); simpl; lia).
      rewrite (app_length _ [z]). simpl.
      match goal with |- _ = nth_error _ ?k => replace k with 0 by lia end. reflexivity.
Qed.

Lemma packed_remove_bad {A} dl (l : list A) pos : length l <= pos ->
  packed_remove dl l pos = if 1 <=? dl then Fail else UB.
Proof.
  intro H. unfold packed_remove, dassert_at.
  destruct (Nat.leb_spec 1 dl).
  - unfold dassert. destruct (Nat.ltb_spec pos (length l)); [lia|]. reflexivity.
  - cbn [obind]. unfold vget. destruct (nth_error l _); cbn [obind]; [|reflexivity].
    unfold vset. destruct (Nat.ltb_spec pos (length l)); [lia|]. reflexivity.
Qed.

Lemma packed_add_remove {A} dl (l : list A) a :
  packed_remove dl (packed_add l a) (length l) = Ok l.
Proof. apply packed_remove_last. Qed.
