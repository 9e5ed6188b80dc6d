(** Finite sums over the entries of a map, in any visiting order. *)
From Coq Require Import Permutation Reals Lra.
From Verif.spec Require Import GaussSpec.
From stdpp Require Import gmap.
Local Open Scope R_scope.

Definition msum {V} (f : Z -> V -> R) (m : gmap Z V) : R := rsum (map (fun kv => f kv.1 kv.2) (map_to_list m)).

Lemma rsum_perm a b : Permutation a b -> rsum a = rsum b.
Proof. induction 1; cbn [rsum]; lra. Qed.
Lemma rsum_map_ext {A} (f g : A -> R) l : (forall x, In x l -> f x = g x) -> rsum (map f l) = rsum (map g l).
Proof.
  induction l as [|x l IH]; intro H; cbn [map rsum]; [reflexivity|].
  rewrite (H x) by now left. rewrite IH; [reflexivity|]. intros y Hy. apply H. now right.
Qed.
Lemma rsum_map_plus {A} (f g : A -> R) l : rsum (map (fun x => f x + g x) l) = rsum (map f l) + rsum (map g l).
Proof. induction l as [|x l IH]; cbn [map rsum]; lra. Qed.
Lemma rsum_map_scal {A} c (f : A -> R) l : rsum (map (fun x => c * f x) l) = c * rsum (map f l).
Proof. induction l as [|x l IH]; cbn [map rsum]; [lra|]. rewrite IH. lra. Qed.

Section M.
  Context {V : Type}.
  Implicit Types (m : gmap Z V) (f g : Z -> V -> R).

  Lemma msum_order f m order : Permutation order (map_to_list m) -> rsum (map (fun kv => f kv.1 kv.2) order) = msum f m.
  Proof. intro P. apply rsum_perm. now apply Permutation_map. Qed.
  Lemma msum_empty f : msum f (∅ : gmap Z V) = 0.
  Proof. unfold msum. rewrite map_to_list_empty. reflexivity. Qed.
  Lemma msum_insert f m k v : m !! k = None -> msum f (<[ k := v ]> m) = f k v + msum f m.
  Proof.
    intro H. unfold msum.
    rewrite (rsum_perm _ (map (fun kv => f kv.1 kv.2) ((k, v) :: map_to_list m))).
    - reflexivity. - apply Permutation_map. now apply map_to_list_insert.
  Qed.
  Lemma msum_delete f m k v : m !! k = Some v -> msum f m = f k v + msum f (delete k m).
  Proof.
    intro H. rewrite <- (insert_delete m k v) at 1 by exact H. apply msum_insert, lookup_delete.
  Qed.
  Lemma msum_update f m k v v' : m !! k = Some v -> msum f (<[ k := v' ]> m) = msum f m + (f k v' - f k v).
  Proof.
    intro H. rewrite <- insert_delete_insert, msum_insert by apply lookup_delete.
    rewrite (msum_delete f m k v H). lra.
  Qed.
  Lemma msum_ext f g m : (forall k v, m !! k = Some v -> f k v = g k v) -> msum f m = msum g m.
  Proof.
    intro H. apply rsum_map_ext. intros [k v] Hin. cbn [fst snd]. apply H.
    apply elem_of_map_to_list. now apply elem_of_list_In.
  Qed.
  Lemma msum_plus f g m : msum (fun k v => f k v + g k v) m = msum f m + msum g m.
  Proof. apply rsum_map_plus. Qed.
  Lemma msum_scal c f m : msum (fun k v => c * f k v) m = c * msum f m.
  Proof. apply rsum_map_scal. Qed.
  Lemma msum_zero m : msum (fun _ _ => 0) m = 0.
  Proof. unfold msum. induction (map_to_list m) as [|x l IH]; cbn [map rsum]; lra. Qed.
  Lemma msum_le f g m : (forall k v, m !! k = Some v -> f k v <= g k v) -> msum f m <= msum g m.
  Proof.
    intro H. unfold msum.
    assert (E : forall x, In x (map_to_list m) -> f x.1 x.2 <= g x.1 x.2).
    { intros [k v] Hin. apply H. apply elem_of_map_to_list. now apply elem_of_list_In. }
    revert E. induction (map_to_list m) as [|x l IH]; intro E; cbn [map rsum]; [lra|].
    assert (f x.1 x.2 <= g x.1 x.2) by (apply E; now left).
    assert (rsum (map (fun kv => f kv.1 kv.2) l) <= rsum (map (fun kv => g kv.1 kv.2) l)) by (apply IH; intros; apply E; now right). lra.
  Qed.
  Lemma msum_nonneg f m : (forall k v, m !! k = Some v -> 0 <= f k v) -> 0 <= msum f m.
  Proof. intro H. rewrite <- (msum_zero m). now apply msum_le. Qed.
  Lemma msum_at f m k v : (forall j w, m !! j = Some w -> j <> k -> f j w = 0) -> m !! k = Some v -> msum f m = f k v.
  Proof.
    intros H E. rewrite (msum_delete f m k v E).
    rewrite (msum_ext f (fun _ _ => 0) (delete k m)); [rewrite msum_zero; lra|].
    intros j w Hj. apply lookup_delete_Some in Hj. destruct Hj. apply H; auto.
  Qed.
End M.
