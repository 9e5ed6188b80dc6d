From Verif.model Require Import Base.

Lemma vget_app {A} (pre : list A) a post : vget (pre ++ a :: post) (length pre) = Ok a.
Proof. unfold vget. rewrite nth_error_app2 by lia. rewrite Nat.sub_diag. reflexivity. Qed.

Lemma upd_app {A} (pre : list A) a b post :
  upd (pre ++ a :: post) (length pre) b = pre ++ b :: post.
Proof. induction pre as [|x pre IH]; simpl; [reflexivity|]. now rewrite IH. Qed.

Lemma vset_app {A} (pre : list A) a b post :
  vset (pre ++ a :: post) (length pre) b = Ok (pre ++ b :: post).
Proof.
  unfold vset. rewrite upd_app.
  destruct (Nat.ltb_spec (length pre) (length (pre ++ a :: post))) as [H|H]; [reflexivity|].
  rewrite app_length in H; simpl in H; lia.
Qed.

Lemma length_upd {A} (l : list A) i a : length (upd l i a) = length l.
Proof. revert i; induction l as [|x l IH]; intros [|i]; simpl; congruence. Qed.

Lemma nth_error_upd_eq {A} (l : list A) i a : i < length l -> nth_error (upd l i a) i = Some a.
Proof. revert i; induction l as [|x l IH]; intros [|i] H; simpl in *; try lia; auto.
       apply IH; lia. Qed.

Lemma nth_error_upd_ne {A} (l : list A) i j a : i <> j -> nth_error (upd l i a) j = nth_error l j.
Proof. revert i j; induction l as [|x l IH]; intros [|i] [|j] H; simpl; try congruence; auto. Qed.

Lemma dassert_at_true dl k b : b = true -> dassert_at dl k b = Ok tt.
Proof. intros ->. unfold dassert_at; destruct (k <=? dl); reflexivity. Qed.

Lemma i32_ok z : (i32_min <= z <= i32_max)%Z -> i32 z = Ok z.
Proof.
  intros [H1 H2]. unfold i32.
  apply Z.leb_le in H1, H2. now rewrite H1, H2.
Qed.

Lemma split_nth_error {A} (l : list A) i a :
  nth_error l i = Some a -> exists pre post, l = pre ++ a :: post /\ length pre = i.
Proof. intro H. apply nth_error_split in H. destruct H as (p & q & -> & <-). eauto. Qed.
