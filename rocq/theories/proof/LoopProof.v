(** Loop rules. *)
From Verif.model Require Import Base VectorMath Slave.
From Verif.proof Require Import BaseProof VectorProof.

Lemma vfor_inv {S : Type} (P : nat -> S -> Prop) (body : nat -> S -> outcome S) : forall n lo s,
  P lo s ->
  (forall i s, lo <= i < lo + n -> P i s -> exists s', body i s = Ok s' /\ P (Datatypes.S i) s') ->
  exists s', vfor lo n body s = Ok s' /\ P (lo + n) s'.
Proof.
  induction n as [|n IH]; intros lo s H0 Hb; cbn [vfor].
  - exists s. rewrite Nat.add_0_r. auto.
  - destruct (Hb lo s) as (s1 & E & H1); [lia|exact H0|]. rewrite E. cbn [obind].
    destruct (IH (Datatypes.S lo) s1 H1) as (s2 & E2 & H2).
    + intros i s' Hi. apply Hb. lia.
    + exists s2. split; [exact E2|]. replace (lo + Datatypes.S n) with (Datatypes.S lo + n) by lia. exact H2.
Qed.

(** The body is a function. *)
Lemma vfor_det {S : Type} (f : nat -> S -> S) (body : nat -> S -> outcome S) : forall n lo s,
  (forall i s, lo <= i < lo + n -> body i s = Ok (f i s)) ->
  vfor lo n body s = Ok (fold_left (fun s i => f i s) (seq lo n) s).
Proof.
  induction n as [|n IH]; intros lo s Hb; cbn [vfor seq fold_left]; [reflexivity|].
  rewrite Hb by lia. cbn [obind]. apply IH. intros i s' Hi. apply Hb. lia.
Qed.

Lemma vfor_ext {S : Type} (b1 b2 : nat -> S -> outcome S) : forall n lo s,
  (forall i s, lo <= i < lo + n -> b1 i s = b2 i s) -> vfor lo n b1 s = vfor lo n b2 s.
Proof.
  induction n as [|n IH]; intros lo s H; cbn [vfor]; [reflexivity|].
  rewrite H by lia. destruct (b2 lo s); cbn [obind]; auto. apply IH. intros; apply H; lia.
Qed.

(** Indexed map. *)
Fixpoint mapi_from {A B} (k : nat) (f : nat -> A -> B) (l : list A) : list B :=
  match l with [] => [] | x :: t => f k x :: mapi_from (S k) f t end.
Definition mapi {A B} (f : nat -> A -> B) (l : list A) : list B := mapi_from 0 f l.
Lemma nth_mapi_from {A B} (f : nat -> A -> B) l : forall k i,
  nth_error (mapi_from k f l) i = option_map (f (k + i)) (nth_error l i).
Proof.
  induction l as [|x l IH]; intros k [|i]; simpl; auto.
  - now rewrite Nat.add_0_r. - rewrite IH. f_equal. f_equal. lia.
Qed.
Lemma nth_mapi {A B} (f : nat -> A -> B) l i : nth_error (mapi f l) i = option_map (f i) (nth_error l i).
Proof. apply nth_mapi_from. Qed.
Lemma mapi_length {A B} (f : nat -> A -> B) l : length (mapi f l) = length l.
Proof. unfold mapi. generalize 0. induction l; intros; simpl; auto. Qed.

(** A loop that rewrites entry i from the original entry i. *)
Lemma vfor_upd {A} (body : nat -> list A -> outcome (list A)) (g : nat -> A -> A) : forall n lo l,
  lo + n <= length l ->
  (forall i l' x, lo <= i < lo + n -> length l' = length l -> nth_error l i = Some x -> nth_error l' i = Some x ->
     body i l' = Ok (upd l' i (g i x))) ->
  exists r, vfor lo n body l = Ok r /\ length r = length l /\
    (forall i x, lo <= i < lo + n -> nth_error l i = Some x -> nth_error r i = Some (g i x)) /\
    (forall i, i < lo \/ lo + n <= i -> nth_error r i = nth_error l i).
Proof.
  induction n as [|n IH]; intros lo l Hl Hb; cbn [vfor].
  - exists l. repeat split; auto. intros; lia.
  - destruct (vget_some l lo) as (x & Hx & _); [lia|].
    rewrite (Hb lo l x) by (auto; lia). cbn [obind].
    destruct (IH (S lo) (upd l lo (g lo x))) as (r & E & Hlen & Hin & Hout).
    + rewrite length_upd. lia.
    + intros i l' y Hi Hl' Hy Hy'. rewrite length_upd in Hl'. apply Hb; auto; [lia|].
      now rewrite nth_error_upd_ne in Hy by lia.
    + exists r. rewrite length_upd in Hlen. split; [exact E|]. split; [exact Hlen|]. split.
      * intros i y Hi Hy. destruct (Nat.eq_dec i lo) as [->|Hne].
        -- rewrite Hout by lia. rewrite nth_error_upd_eq by lia. congruence.
        -- apply Hin; [lia|]. rewrite nth_error_upd_ne by lia. exact Hy.
      * intros i Hi. rewrite Hout by lia. apply nth_error_upd_ne. lia.
Qed.

Lemma vfor_mapi {A} (body : nat -> list A -> outcome (list A)) (g : nat -> A -> A) l :
  (forall i l' x, length l' = length l -> nth_error l i = Some x -> nth_error l' i = Some x ->
     body i l' = Ok (upd l' i (g i x))) ->
  vfor 0 (length l) body l = Ok (mapi g l).
Proof.
  intro Hb. destruct (vfor_upd body g (length l) 0 l) as (r & E & L & I & O); [lia| |].
  - intros; apply Hb; auto.
  - rewrite E. f_equal. apply nth_error_ext. intro i. rewrite nth_mapi.
    destruct (nth_error l i) as [x|] eqn:Hx; cbn [option_map].
    + apply I; auto. apply nth_error_Some_bound in Hx || (assert (nth_error l i <> None) by congruence; apply nth_error_Some in H; lia).
    + apply nth_error_None in Hx. apply nth_error_None. lia.
Qed.

(** In-place kernels over the whole vector. *)
Lemma vupdate_mapi {F} {N : Num.Num F} (f : nat -> F -> outcome F) (g : nat -> F -> F) l :
  (forall i x, nth_error l i = Some x -> f i x = Ok (g i x)) ->
  vfor 0 (length l) (vupdate f) l = Ok (mapi g l).
Proof.
  intro Hf. apply vfor_mapi. intros i l' x Hl Hx Hx'. unfold vupdate.
  rewrite (vget_nth _ _ _ Hx'). cbn [obind]. rewrite (Hf _ _ Hx). cbn [obind].
  apply vset_ok. apply nth_error_Some. congruence.
Qed.

Lemma vec_resize_length {A} (d : A) l n : length (vec_resize d l n) = n.
Proof.
  unfold vec_resize. rewrite app_length, firstn_length, repeat_length. lia.
Qed.
Lemma vec_resize_id {A} (d : A) l : vec_resize d l (length l) = l.
Proof. unfold vec_resize. rewrite firstn_all, Nat.sub_diag. apply app_nil_r. Qed.
