(** The sum of the products of c^c over all partitions of n values, and its values for small n. *)
From Coq Require Import List ZArith Lia.
From Verif.model Require Import Base.
From Verif.spec Require Import LabelSpec LowEntropySpec.
From Verif.proof Require Import BaseProof SamplerProof PYLaw.
Import ListNotations.
Local Open Scope Z_scope.

Fixpoint zsum (l : list Z) : Z := match l with [] => 0 | x :: t => x + zsum t end.
Lemma zsum_app a b : zsum (a ++ b) = zsum a + zsum b.
Proof. induction a as [|x a IH]; cbn [app zsum]; [reflexivity|]. rewrite IH. lia. Qed.

Fixpoint zweight (cs : list Z) : Z := match cs with [] => 1 | c :: t => c ^ c * zweight t end.
(** The sizes after one more value. *)
Fixpoint kids (cs : list Z) : list (list Z) :=
  match cs with [] => [[1]] | c :: t => ((c + 1) :: t) :: map (cons c) (kids t) end.
(** Total weight of the partitions reached with n more values. *)
Fixpoint W (n : nat) (cs : list Z) : Z :=
  match n with O => zweight cs | S m => zsum (map (W m) (kids cs)) end.

(** Binomial sums by Pascal's rule. *)
Fixpoint cv (n : nat) (F : nat -> nat -> Z) : Z :=
  match n with
  | O => F 0%nat 0%nat
  | S m => cv m (fun a b => F (S a) b) + cv m (fun a b => F a (S b))
  end.
Lemma cv_ext n : forall F G, (forall a b, F a b = G a b) -> cv n F = cv n G.
Proof. induction n as [|n IH]; intros F G H; cbn [cv]; [apply H|]. f_equal; apply IH; intros; apply H. Qed.
Lemma cv_sum {A} (l : list A) n : forall F : A -> nat -> nat -> Z,
  zsum (map (fun x => cv n (F x)) l) = cv n (fun a b => zsum (map (fun x => F x a b) l)).
Proof.
  induction n as [|n IH]; intro F; cbn [cv]; [reflexivity|].
  rewrite <- (IH (fun x a b => F x (S a) b)), <- (IH (fun x a b => F x a (S b))). clear IH.
  induction l as [|x l IHl]; cbn [map zsum]; [reflexivity|]. rewrite IHl. lia.
Qed.
Lemma zsum_scal {A} c (f : A -> Z) l : zsum (map (fun x => c * f x) l) = c * zsum (map f l).
Proof. induction l as [|x l IH]; cbn [map zsum]; [lia|]. rewrite IH. lia. Qed.

Definition selfp (c : Z) : Z := c ^ c.
Lemma W_cons n : forall c cs, W n (c :: cs) = cv n (fun a b => selfp (c + Z.of_nat a) * W b cs).
Proof.
  induction n as [|n IH]; intros c cs.
  - cbn [W cv zweight]. unfold selfp. rewrite Z.add_0_r. reflexivity.
  - cbn [W kids map zsum cv]. rewrite IH. f_equal.
    + apply cv_ext. intros a b. f_equal. unfold selfp. f_equal; lia.
    + rewrite map_map. rewrite (map_ext _ (fun k => cv n (fun a b => selfp (c + Z.of_nat a) * W b k))) by (intro k; apply IH).
      rewrite cv_sum. apply cv_ext. intros a b. cbn [W]. apply zsum_scal.
Qed.

(** Pascal's rows *)
Fixpoint nxt (p : Z) (row : list Z) : list Z := match row with [] => [p] | r :: rs => (p + r) :: nxt r rs end.
Fixpoint row (n : nat) : list Z := match n with O => [1] | S m => nxt 0 (row m) end.
Lemma nxt_length r : forall p, length (nxt p r) = S (length r).
Proof. induction r as [|x r IH]; intro p; cbn [nxt length]; [reflexivity|]. now rewrite IH. Qed.
Lemma row_length n : length (row n) = S n.
Proof. induction n as [|n IH]; cbn [row]; [reflexivity|]. now rewrite nxt_length, IH. Qed.
Fixpoint pas (r : list Z) (F : nat -> nat -> Z) (a n : nat) : Z :=
  match r with [] => 0 | x :: t => x * F a n + pas t F (S a) (n - 1)%nat end.
Lemma pas_nxt F r : forall p a n, (length r <= S n)%nat ->
  pas (nxt p r) F a (S n) = p * F a (S n) + pas r (fun a b => F (S a) b) a n + pas r (fun a b => F a (S b)) a n.
Proof.
  induction r as [|x r IH]; intros p a n H; cbn [nxt pas].
  - lia.
  - cbn [length] in H. replace (S n - 1)%nat with n by lia. destruct r as [|y r].
    + cbn [nxt pas]. lia.
    + cbn [length] in H. destruct n as [|n]; [lia|]. rewrite IH by (cbn [length]; lia). replace (S n - 1)%nat with n by lia. lia.
Qed.
Lemma cv_pas n : forall F, cv n F = pas (row n) F 0 n.
Proof.
  induction n as [|n IH]; intro F; cbn [cv row].
  - cbn [pas]. lia.
  - rewrite pas_nxt by (rewrite row_length; lia). rewrite !IH. lia.
Qed.

(** The sums for 0, ..., n: (row n, totals of n, n-1, ..., 0) *)
Fixpoint dot3 (rs fs zs : list Z) : Z :=
  match rs, fs, zs with r :: rs', f :: fs', z :: zs' => r * (f * z) + dot3 rs' fs' zs' | _, _, _ => 0 end.
Fixpoint tab (fs : list Z) (n : nat) : list Z * list Z :=
  match n with
  | O => ([1], [1])
  | S m => let '(r, zs) := tab fs m in (nxt 0 r, dot3 r fs zs :: zs)
  end.
Definition powers (n : nat) : list Z := map (fun i => selfp (Z.of_nat i)) (seq 1 n).
Fixpoint down (n : nat) : list Z := match n with O => [W 0 []] | S m => W (S m) [] :: down m end.
Lemma down_length n : length (down n) = S n.
Proof. induction n as [|n IH]; cbn [down length]; [reflexivity|]. now rewrite IH. Qed.
Lemma dot3_pas r : forall n a len, (length r <= S n)%nat -> (length r <= len)%nat ->
  dot3 r (map (fun i => selfp (Z.of_nat i)) (seq (S a) len)) (down n) = pas r (fun a b => selfp (1 + Z.of_nat a) * W b []) a n.
Proof.
  induction r as [|x r IH]; intros n a len H1 H2; [reflexivity|]. cbn [length] in *.
  destruct len as [|len]; [lia|]. cbn [seq map pas]. destruct n as [|n].
  - destruct r; [|cbn [length] in H1; lia]. cbn [down dot3 pas]. rewrite Nat2Z.inj_succ. unfold Z.succ. rewrite (Z.add_comm _ 1). lia.
  - cbn [down dot3]. replace (S n - 1)%nat with n by lia. rewrite IH by lia.
    replace (Z.of_nat (S a)) with (1 + Z.of_nat a) by lia. reflexivity.
Qed.
Lemma tab_ok N n : (n <= N)%nat -> tab (powers N) n = (row n, down n).
Proof.
  induction n as [|n IH]; intro H; [reflexivity|]. cbn [tab row down]. rewrite IH by lia. do 2 f_equal.
  unfold powers. rewrite dot3_pas by (rewrite row_length; lia). rewrite <- cv_pas. symmetry.
  change (W (S n) []) with (W n [1] + 0). rewrite Z.add_0_r. apply W_cons.
Qed.

(** ** Partitions *)
Fixpoint bump (cs : list Z) (x : nat) : list Z :=
  match cs, x with [], _ => [1] | c :: t, O => (c + 1) :: t | c :: t, S y => c :: bump t y end.
Lemma kids_bump cs : kids cs = map (bump cs) (seq 0 (S (length cs))).
Proof.
  induction cs as [|c cs IH]; [reflexivity|]. cbn [kids length]. rewrite IH, map_map. change (seq 0 (S (S (length cs)))) with (0%nat :: seq 1 (S (length cs))).
  cbn [map bump]. f_equal. rewrite <- seq_shift, map_map. reflexivity.
Qed.
Lemma bump_new cs : bump cs (length cs) = cs ++ [1].
Proof. induction cs as [|c cs IH]; cbn [bump length app]; [reflexivity|]. now rewrite IH. Qed.
Lemma bump_upd cs : forall x c, nth_error cs x = Some c -> bump cs x = upd cs x (c + 1).
Proof.
  induction cs as [|d cs IH]; intros [|x] c H; try discriminate; cbn [nth_error bump upd] in *.
  - now injection H as ->.
  - now rewrite (IH x c).
Qed.
Lemma sizes_snoc p x : labels_from 0 p -> (x <= Z.to_nat (next_label 0 p))%nat ->
  block_sizes (p ++ [Z.of_nat x]) = bump (block_sizes p) x.
Proof.
  intros H Hx. pose proof (next_ge 0 p) as Hk. unfold block_sizes. rewrite next_app. cbn [next_label].
  destruct (Z.eqb_spec (Z.of_nat x) (next_label 0 p)) as [E|E].
  - rewrite label_sizes_new by lia. rewrite label_sizes_ext by lia. rewrite occ_snoc, occ_fresh by (auto; lia).
    rewrite E, Z.eqb_refl. replace x with (length (label_sizes (next_label 0 p) p)) by (rewrite label_sizes_length; lia).
    rewrite bump_new. reflexivity.
  - rewrite label_sizes_bump by lia. rewrite Nat2Z.id. symmetry. apply bump_upd. apply label_sizes_nth. lia.
Qed.
Lemma total_labels n : forall m, zsum (map (fun a => W m (block_sizes a)) (all_labels n)) = W (n + m) [].
Proof.
  induction n as [|n IH]; intro m.
  - cbn [all_labels map zsum]. change (block_sizes []) with (@nil Z). cbn [Nat.add]. lia.
  - replace (S n + m)%nat with (n + S m)%nat by lia. rewrite <- IH. cbn [all_labels].
    assert (H : List.Forall (labels_from 0) (all_labels n)).
    { apply List.Forall_forall. intros p Hp. now apply all_labels_in in Hp. }
    clear IH. induction H as [|p l Hp _ IHl]; [reflexivity|]. cbn [flat_map map zsum]. rewrite map_app, zsum_app, IHl. f_equal.
    cbn [W]. rewrite kids_bump. f_equal. rewrite !map_map. replace (length (block_sizes p)) with (Z.to_nat (next_label 0 p)) by (unfold block_sizes; now rewrite label_sizes_length).
    apply map_ext_in. intros x Hx. apply in_seq in Hx. rewrite sizes_snoc by (auto; lia). reflexivity.
Qed.
