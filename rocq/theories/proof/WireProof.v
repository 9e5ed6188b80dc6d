(** The wire format: what the library's writing calls write is what the format says, and its reading
    calls read it back. *)
From Verif.model Require Import Base Wire.
From Verif.spec Require Import WireSpec.
Local Open Scope Z_scope.

Lemma some_pair {A B} (a c : A) (b d : B) : Some (a, b) = Some (c, d) -> a = c /\ b = d.
Proof. intros H. split; congruence. Qed.

Definition is_byte (x : Z) : Prop := 0 <= x < 256.

(** * Varints *)

Lemma varint_det n l : varint n l -> forall l', varint n l' -> l = l'.
Proof.
  induction 1 as [n Hn|n l Hn H IH]; intros l' H'; inversion H'; subst; try lia; auto.
  f_equal. auto.
Qed.

Lemma varint_nonneg n l : varint n l -> 0 <= n.
Proof. induction 1; lia. Qed.

Lemma write_varint_aux_ok k : forall n, 0 <= n < 128 ^ Z.of_nat (S k) -> varint n (write_varint_aux (S k) n).
Proof.
  induction k as [|k IH]; intros n Hn.
  - simpl. assert (n < 128) by (change (128 ^ Z.of_nat 1) with 128 in Hn; lia).
    destruct (n <? 128) eqn:E; [|apply Z.ltb_ge in E; lia]. constructor; lia.
  - cbn [write_varint_aux]. destruct (n <? 128) eqn:E.
    + apply Z.ltb_lt in E. constructor; lia.
    + apply Z.ltb_ge in E. rewrite (Z.add_comm (n mod 128) 128). constructor; [lia|]. apply IH.
      split; [apply Z.div_pos; lia|]. apply Z.div_lt_upper_bound; [lia|].
      rewrite Nat2Z.inj_succ, Z.pow_succ_r in Hn by lia. lia.
Qed.

Lemma write_varint_ok n : 0 <= n < 2 ^ 64 -> varint n (write_varint n).
Proof. intros H. apply (write_varint_aux_ok 9). split; [lia|]. eapply Z.lt_le_trans; [apply H|]. vm_compute. discriminate. Qed.

Lemma varint_write n l : varint n l -> n < 2 ^ 64 -> l = write_varint n.
Proof.
  intros H Hn. eapply varint_det; [exact H|]. apply write_varint_ok. split; [eapply varint_nonneg; eauto|auto].
Qed.

Lemma read_write_varint_aux k : forall n r, 0 <= n < 128 ^ Z.of_nat (S k) ->
  read_varint_aux (S k) (write_varint_aux (S k) n ++ r) = Some (n, r).
Proof.
  induction k as [|k IH]; intros n r Hn.
  - simpl. assert (n < 128) by (change (128 ^ Z.of_nat 1) with 128 in Hn; lia).
    rewrite (proj2 (Z.ltb_lt n 128)) by lia. simpl. rewrite (proj2 (Z.ltb_lt n 128)) by lia. reflexivity.
  - cbn [write_varint_aux]. destruct (n <? 128) eqn:E.
    + cbn [app read_varint_aux]. rewrite E. reflexivity.
    + apply Z.ltb_ge in E. cbn [app]. cbn [read_varint_aux].
      pose proof (Z.mod_pos_bound n 128 ltac:(lia)).
      rewrite (proj2 (Z.ltb_ge _ 128)) by lia.
      change (write_varint_aux (S k) (n / 128)) with (write_varint_aux (S k) (n / 128)).
      change (match read_varint_aux (S k) (write_varint_aux (S k) (n / 128) ++ r) with
              | Some (v, r0) => Some (n mod 128 + 128 - 128 + 128 * v, r0) | None => None end = Some (n, r)).
      rewrite IH.
      * f_equal. f_equal. pose proof (Z.div_mod n 128). lia.
      * split; [apply Z.div_pos; lia|]. apply Z.div_lt_upper_bound; [lia|].
        rewrite Nat2Z.inj_succ, Z.pow_succ_r in Hn by lia. lia.
Qed.

Lemma read_write_varint n r : 0 <= n < 2 ^ 64 -> read_varint_aux 10 (write_varint n ++ r) = Some (n, r).
Proof.
  intros H. apply (read_write_varint_aux 9). split; [lia|]. eapply Z.lt_le_trans; [apply H|].
  vm_compute. discriminate.
Qed.

Lemma read_write_varint64 n r : 0 <= n < 2 ^ 64 -> read_varint64 (write_varint n ++ r) = Some (n, r).
Proof. intros H. unfold read_varint64. rewrite read_write_varint by auto. rewrite Z.mod_small by auto. reflexivity. Qed.

Lemma read_write_varint32 n r : 0 <= n < 2 ^ 64 -> read_varint32 (write_varint n ++ r) = Some (n mod 2 ^ 32, r).
Proof. intros H. unfold read_varint32. rewrite read_write_varint by auto. reflexivity. Qed.

Lemma read_varint_aux_app k : forall l v r x,
  read_varint_aux k l = Some (v, r) -> read_varint_aux k (l ++ x) = Some (v, r ++ x).
Proof.
  induction k as [|k IH]; intros [|b t] v r x H; try discriminate.
  cbn [app read_varint_aux] in *. destruct (b <? 128).
  - injection H as <- <-. reflexivity.
  - destruct (read_varint_aux k t) as [[v' r']|] eqn:E; [|discriminate].
    injection H as <- <-. rewrite (IH _ _ _ x E). reflexivity.
Qed.

(** The bytes left are a proper suffix. *)
Lemma read_varint_aux_suffix k : forall l v r,
  read_varint_aux k l = Some (v, r) -> exists a p, l = (a :: p) ++ r.
Proof.
  induction k as [|k IH]; intros [|b t] v r H; try discriminate.
  cbn [read_varint_aux] in *. destruct (b <? 128).
  - injection H as <- <-. exists b, []. reflexivity.
  - destruct (read_varint_aux k t) as [[v' r']|] eqn:E; [|discriminate].
    injection H as <- <-. destruct (IH _ _ _ E) as (a & p & ->). exists b, (a :: p). reflexivity.
Qed.

(** * Little endian *)

Lemma write_le_ok k : forall v, write_le k v = little_endian k v.
Proof. induction k; intros v; simpl; congruence. Qed.

Lemma read_write_le k : forall v r, 0 <= v < 256 ^ Z.of_nat k -> read_le k (write_le k v ++ r) = Some (v, r).
Proof.
  induction k as [|k IH]; intros v r H.
  - change (256 ^ Z.of_nat 0) with 1 in H. assert (v = 0) by lia. subst. reflexivity.
  - cbn [write_le app read_le]. rewrite IH.
    + f_equal. f_equal. pose proof (Z.div_mod v 256). lia.
    + split; [apply Z.div_pos; lia|]. apply Z.div_lt_upper_bound; [lia|].
      rewrite Nat2Z.inj_succ, Z.pow_succ_r in H by lia. lia.
Qed.

Lemma read_le_app k : forall l v r x, read_le k l = Some (v, r) -> read_le k (l ++ x) = Some (v, r ++ x).
Proof.
  induction k as [|k IH]; intros l v r x H.
  - cbn [read_le] in *. injection H as <- <-. reflexivity.
  - destruct l as [|b t]; [discriminate|]. cbn [app read_le] in *.
    destruct (read_le k t) as [[v' r']|] eqn:E; [|discriminate]. injection H as <- <-.
    rewrite (IH _ _ _ x E). reflexivity.
Qed.

Lemma read_le_suffix k : forall l v r, read_le k l = Some (v, r) -> exists p, l = p ++ r /\ length p = k.
Proof.
  induction k as [|k IH]; intros l v r H.
  - cbn [read_le] in *. injection H as <- <-. exists []. auto.
  - destruct l as [|b t]; [discriminate|]. cbn [read_le] in *.
    destruct (read_le k t) as [[v' r']|] eqn:E; [|discriminate]. injection H as <- <-.
    destruct (IH _ _ _ E) as (p & -> & <-). exists (b :: p). auto.
Qed.

Lemma read_le_range k : forall l v r, Forall is_byte l -> read_le k l = Some (v, r) -> 0 <= v < 256 ^ Z.of_nat k.
Proof.
  induction k as [|k IH]; intros l v r Hl H.
  - cbn [read_le] in *. injection H as <- <-. change (256 ^ Z.of_nat 0) with 1. lia.
  - destruct l as [|b t]; [discriminate|]. cbn [read_le] in *. inversion Hl; subst.
    destruct (read_le k t) as [[v' r']|] eqn:E; [|discriminate]. injection H as <- <-.
    apply IH in E; auto. rewrite Nat2Z.inj_succ, Z.pow_succ_r by lia.
    match goal with B : is_byte b |- _ => unfold is_byte in B end. set (P := 256 ^ Z.of_nat k) in *. clearbody P. change (0 <= b + 256 * v' < 256 * P). lia.
Qed.

Lemma write_le_length k : forall v, length (write_le k v) = k.
Proof. induction k; intros v; simpl; auto. Qed.

Lemma write_le_bytes k : forall v, Forall is_byte (write_le k v).
Proof.
  induction k; intros v; simpl; constructor; auto. unfold is_byte. apply Z.mod_pos_bound. lia.
Qed.

Lemma varint_bytes n l : varint n l -> Forall is_byte l.
Proof.
  induction 1 as [n Hn|n l Hn H IH]; constructor; auto; unfold is_byte; [lia|].
  pose proof (Z.mod_pos_bound n 128). lia.
Qed.

Lemma varint_nonempty n l : varint n l -> exists a p, l = a :: p.
Proof. destruct 1; eauto. Qed.

(** * Sizes *)

Lemma varint_length k : forall n l, varint n l -> n < 128 ^ Z.of_nat (S k) -> (length l <= S k)%nat.
Proof.
  induction k as [|k IH]; intros n l H Hn; destruct H as [n Hr|n l0 Hr H]; simpl length.
  - lia.
  - change (128 ^ Z.of_nat 1) with 128 in Hn. lia.
  - lia.
  - rewrite Nat2Z.inj_succ, Z.pow_succ_r in Hn by lia.
    assert (length l0 <= S k)%nat; [|lia]. eapply IH; [eassumption|].
    apply Z.div_lt_upper_bound; lia.
Qed.

Lemma varint_length_ge k : forall n l, varint n l -> 128 ^ Z.of_nat k <= n -> (S k <= length l)%nat.
Proof.
  induction k as [|k IH]; intros n l H Hn; destruct H as [n Hr|n l0 Hr H]; simpl length.
  - lia.
  - lia.
  - rewrite Nat2Z.inj_succ, Z.pow_succ_r in Hn by lia.
    pose proof (Z.pow_pos_nonneg 128 (Z.of_nat k) ltac:(lia) ltac:(lia)). lia.
  - rewrite Nat2Z.inj_succ, Z.pow_succ_r in Hn by lia.
    assert (S k <= length l0)%nat; [|lia]. eapply IH; [eassumption|].
    apply Z.div_le_lower_bound; lia.
Qed.

Lemma varint_length_between k n l : varint n l -> (k = 0%nat \/ 2 ^ (7 * Z.of_nat k) <= n) ->
  n < 2 ^ (7 * Z.of_nat (S k)) -> Z.of_nat (length l) = Z.of_nat (S k).
Proof.
  intros H Hlo Hhi.
  assert (P : forall j, 128 ^ Z.of_nat j = 2 ^ (7 * Z.of_nat j)).
  { intros j. change 128 with (2 ^ 7). rewrite <- Z.pow_mul_r by lia. reflexivity. }
  assert (length l <= S k)%nat by (apply varint_length with n; auto; rewrite P; auto).
  assert (S k <= length l)%nat; [|lia].
  destruct Hlo as [->|Hlo].
  - destruct (varint_nonempty _ _ H) as (a & p & ->). simpl. lia.
  - apply varint_length_ge with n; auto. rewrite P; auto.
Qed.

Lemma varint_size64_ok n l : varint n l -> n < 2 ^ 64 -> varint_size64 n = Z.of_nat (length l).
Proof.
  intros H Hn. unfold varint_size64. pose proof (varint_nonneg _ _ H).
  repeat match goal with
  | |- context [?a <? ?b] => destruct (Z.ltb_spec a b)
  end; symmetry;
  match goal with
  | |- _ = 1 => apply (varint_length_between 0 n l H); [left; reflexivity|]
  | |- _ = 2 => apply (varint_length_between 1 n l H); [right|]
  | |- _ = 3 => apply (varint_length_between 2 n l H); [right|]
  | |- _ = 4 => apply (varint_length_between 3 n l H); [right|]
  | |- _ = 5 => apply (varint_length_between 4 n l H); [right|]
  | |- _ = 6 => apply (varint_length_between 5 n l H); [right|]
  | |- _ = 7 => apply (varint_length_between 6 n l H); [right|]
  | |- _ = 8 => apply (varint_length_between 7 n l H); [right|]
  | |- _ = 9 => apply (varint_length_between 8 n l H); [right|]
  | |- _ = 10 => apply (varint_length_between 9 n l H); [right|]
  end; cbv [Z.of_nat Pos.of_succ_nat Pos.succ]; lia.
Qed.

Lemma varint_size32_ok n l : varint n l -> n < 2 ^ 32 -> varint_size32 n = Z.of_nat (length l).
Proof.
  intros H Hn. rewrite <- (varint_size64_ok n l H) by lia. unfold varint_size32, varint_size64.
  rewrite (proj2 (Z.ltb_lt n (2 ^ 35))) by lia. reflexivity.
Qed.

(** * Tags *)

Lemma read_varint32_app l v r x : read_varint32 l = Some (v, r) -> read_varint32 (l ++ x) = Some (v, r ++ x).
Proof.
  unfold read_varint32. destruct (read_varint_aux 10 l) as [[v' r']|] eqn:E; [|discriminate].
  intros H. injection H as <- <-. rewrite (read_varint_aux_app _ _ _ _ x E). reflexivity.
Qed.
Lemma read_varint64_app l v r x : read_varint64 l = Some (v, r) -> read_varint64 (l ++ x) = Some (v, r ++ x).
Proof.
  unfold read_varint64. destruct (read_varint_aux 10 l) as [[v' r']|] eqn:E; [|discriminate].
  intros H. injection H as <- <-. rewrite (read_varint_aux_app _ _ _ _ x E). reflexivity.
Qed.
Lemma read_varint32_suffix l v r : read_varint32 l = Some (v, r) -> exists a p, l = (a :: p) ++ r.
Proof.
  unfold read_varint32. destruct (read_varint_aux 10 l) as [[v' r']|] eqn:E; [|discriminate].
  intros H. injection H as <- <-. eapply read_varint_aux_suffix; eauto.
Qed.
Lemma read_varint64_suffix l v r : read_varint64 l = Some (v, r) -> exists a p, l = (a :: p) ++ r.
Proof.
  unfold read_varint64. destruct (read_varint_aux 10 l) as [[v' r']|] eqn:E; [|discriminate].
  intros H. injection H as <- <-. eapply read_varint_aux_suffix; eauto.
Qed.
Lemma read_varint32_range l v r : read_varint32 l = Some (v, r) -> 0 <= v < 2 ^ 32.
Proof.
  unfold read_varint32. destruct (read_varint_aux 10 l) as [[v' r']|]; [|discriminate].
  intros H. injection H as <- <-. apply Z.mod_pos_bound. lia.
Qed.
Lemma read_varint64_range l v r : read_varint64 l = Some (v, r) -> 0 <= v < 2 ^ 64.
Proof.
  unfold read_varint64. destruct (read_varint_aux 10 l) as [[v' r']|]; [|discriminate].
  intros H. injection H as <- <-. apply Z.mod_pos_bound. lia.
Qed.
(** Both widths see the same bytes. *)
Lemma read_varint_32_64 l : read_varint32 l =
  match read_varint64 l with Some (v, r) => Some (v mod 2 ^ 32, r) | None => None end.
Proof.
  unfold read_varint32, read_varint64. destruct (read_varint_aux 10 l) as [[v r]|]; auto.
  f_equal. f_equal. rewrite <- Znumtheory.Zmod_div_mod; auto; try lia.
  exists (2 ^ 32). reflexivity.
Qed.

Lemma read_tag_app l t r x : read_tag l = TTag t r -> read_tag (l ++ x) = TTag t (r ++ x).
Proof.
  unfold read_tag. destruct l as [|a l]; [discriminate|].
  destruct (read_varint32 (a :: l)) as [[t' r']|] eqn:E; [|discriminate].
  intros H. cbn [app]. change (a :: l ++ x) with ((a :: l) ++ x). rewrite (read_varint32_app _ _ _ x E).
  destruct (t' =? 0); [discriminate|]. injection H as <- <-. reflexivity.
Qed.
Lemma read_tag_suffix l t r : read_tag l = TTag t r -> (exists a p, l = (a :: p) ++ r) /\ 0 < t < 2 ^ 32.
Proof.
  unfold read_tag. destruct l as [|a l]; [discriminate|].
  destruct (read_varint32 (a :: l)) as [[t' r']|] eqn:E; [|discriminate].
  destruct (Z.eqb_spec t' 0); [discriminate|]. intros H. injection H as <- <-. split.
  - eapply read_varint32_suffix; eauto.
  - apply read_varint32_range in E. lia.
Qed.

Lemma read_write_tag n wt x : 0 < 8 * n + wt < 2 ^ 32 -> read_tag (write_tag n wt ++ x) = TTag (8 * n + wt) x.
Proof.
  intros H. unfold write_tag, make_tag, read_tag.
  destruct (varint_nonempty (8 * n + wt) (write_varint (8 * n + wt))) as (a & p & E);
    [apply write_varint_ok; lia|].
  pose proof (read_write_varint32 (8 * n + wt) x ltac:(lia)) as R. rewrite E in *. cbn [app] in *.
  rewrite R. rewrite Z.mod_small by lia.
  rewrite (proj2 (Z.eqb_neq _ 0)) by lia. reflexivity.
Qed.

Lemma tag_number_make n wt : 0 <= wt < 8 -> tag_number (8 * n + wt) = n.
Proof. intros H. unfold tag_number. rewrite Z.mul_comm, Z.div_add_l by lia. rewrite Z.div_small by lia. lia. Qed.
Lemma tag_wire_type_make n wt : 0 <= wt < 8 -> tag_wire_type (8 * n + wt) = wt.
Proof. intros H. unfold tag_wire_type. rewrite Z.add_comm, Z.mul_comm, Z.mod_add by lia. apply Z.mod_small. lia. Qed.
Lemma tag_split t : t = 8 * tag_number t + tag_wire_type t.
Proof. unfold tag_number, tag_wire_type. apply Z.div_mod. lia. Qed.
Lemma tag_wire_type_range t : 0 <= tag_wire_type t < 8.
Proof. apply Z.mod_pos_bound. lia. Qed.

Lemma take_prefix_spec p : forall l r, take_prefix p l = Some r <-> l = p ++ r.
Proof.
  induction p as [|a p IH]; intros l r; simpl.
  - split; intros H; [injection H as <-|subst]; auto.
  - destruct l as [|b l]; [split; discriminate|].
    destruct (Z.eqb_spec a b) as [->|N].
    + rewrite IH. split; intros H; [subst; auto|injection H as ->; auto].
    + split; intros H; [discriminate|injection H as -> _; contradiction].
Qed.

(** * Scalars *)

Definition in_kind (k : kind) (v : Z) : Prop :=
  match k with
  | KFloat | KU32 => 0 <= v < 2 ^ 32
  | KU64 => 0 <= v < 2 ^ 64
  | KI32 => - 2 ^ 31 <= v < 2 ^ 31
  end.

Lemma read_write_prim k v r : in_kind k v -> read_prim k (write_prim k v ++ r) = Some (v, r).
Proof.
  destruct k; simpl in_kind; intros H; cbn [read_prim write_prim].
  - apply (read_write_le 4). exact H.
  - apply read_write_varint64. auto.
  - rewrite read_write_varint32 by lia. rewrite Z.mod_small by lia. reflexivity.
  - assert (M : 0 <= v mod 2 ^ 64 < 2 ^ 64) by (apply Z.mod_pos_bound; lia).
    rewrite read_write_varint32 by auto.
    assert (E : (v mod 2 ^ 64) mod 2 ^ 32 = v mod 2 ^ 32).
    { symmetry. apply Znumtheory.Zmod_div_mod; try lia. exists (2 ^ 32). reflexivity. }
    rewrite E. destruct (Z_lt_le_dec v 0) as [N|P].
    + assert (E' : v mod 2 ^ 32 = v + 2 ^ 32).
      { symmetry. apply Z.mod_unique with (-1); lia. }
      rewrite E'. rewrite (proj2 (Z.ltb_ge _ _)) by lia. f_equal. f_equal. lia.
    + rewrite Z.mod_small by lia. rewrite (proj2 (Z.ltb_lt _ _)) by lia. reflexivity.
Qed.

Lemma read_prim_app k l v r x : read_prim k l = Some (v, r) -> read_prim k (l ++ x) = Some (v, r ++ x).
Proof.
  destruct k; cbn [read_prim]; intros H.
  - apply read_le_app; auto.
  - apply read_varint64_app; auto.
  - apply read_varint32_app; auto.
  - destruct (read_varint32 l) as [[v' r']|] eqn:E; [|discriminate].
    rewrite (read_varint32_app _ _ _ x E). injection H as <- <-. reflexivity.
Qed.

Lemma read_prim_suffix k l v r : read_prim k l = Some (v, r) -> exists a p, l = (a :: p) ++ r.
Proof.
  destruct k; cbn [read_prim]; intros H.
  - destruct (read_le_suffix _ _ _ _ H) as ([|a p] & -> & E); [discriminate|]. eauto.
  - eapply read_varint64_suffix; eauto.
  - eapply read_varint32_suffix; eauto.
  - destruct (read_varint32 l) as [[v' r']|] eqn:E; [|discriminate]. injection H as <- <-.
    eapply read_varint32_suffix; eauto.
Qed.

Lemma read_prim_range k l v r : Forall is_byte l -> read_prim k l = Some (v, r) -> in_kind k v.
Proof.
  destruct k; cbn [read_prim in_kind]; intros Hl H.
  - exact (read_le_range _ _ _ _ Hl H).
  - eapply read_varint64_range; eauto.
  - eapply read_varint32_range; eauto.
  - destruct (read_varint32 l) as [[v' r']|] eqn:E; [|discriminate]. apply some_pair in H; destruct H as [<- <-].
    apply read_varint32_range in E. destruct (Z.ltb_spec v' (2 ^ 31)); lia.
Qed.

Lemma prim_size_ok k v : in_kind k v -> prim_size k v = Z.of_nat (length (write_prim k v)).
Proof.
  destruct k; cbn [in_kind prim_size write_prim]; intros H.
  - rewrite write_le_length. reflexivity.
  - apply varint_size64_ok; [apply write_varint_ok|]; lia.
  - apply varint_size32_ok; [apply write_varint_ok|]; lia.
  - destruct (Z.ltb_spec v 0).
    + assert (E' : v mod 2 ^ 64 = v + 2 ^ 64) by (symmetry; apply Z.mod_unique with (-1); lia).
      rewrite E'. symmetry.
      apply (varint_length_between 9 (v + 2 ^ 64)); [apply write_varint_ok; lia|right|];
        cbv [Z.of_nat Pos.of_succ_nat Pos.succ]; lia.
    + rewrite Z.mod_small by lia. apply varint_size32_ok; [apply write_varint_ok|]; lia.
Qed.

Lemma prim_size_pos k v : 0 < prim_size k v.
Proof.
  destruct k; cbn [prim_size]; try lia; unfold varint_size32, varint_size64;
    repeat match goal with |- context [?a <? ?b] => destruct (a <? b) end; lia.
Qed.

Lemma write_prim_bytes k v : in_kind k v -> Forall is_byte (write_prim k v).
Proof.
  destruct k; cbn [in_kind write_prim]; intros H.
  - apply write_le_bytes.
  - eapply varint_bytes, write_varint_ok; lia.
  - eapply varint_bytes, write_varint_ok; lia.
  - eapply varint_bytes, write_varint_ok. apply Z.mod_pos_bound. lia.
Qed.

(** * Records *)

Section RecordInd.
  Context (P : record -> Prop).
  Context (Hv : forall n v, P (RVarint n v)) (H64 : forall n v, P (RFixed64 n v))
          (Hl : forall n b, P (RLen n b)) (Hg : forall n rs, Forall P rs -> P (RGroup n rs))
          (H32 : forall n v, P (RFixed32 n v)).
  Fixpoint record_ind' (r : record) : P r :=
    match r with
    | RVarint n v => Hv n v
    | RFixed64 n v => H64 n v
    | RLen n b => Hl n b
    | RGroup n rs => Hg n rs ((fix go (rs : list record) : Forall P rs :=
        match rs with [] => Forall_nil _ | r :: t => Forall_cons _ (record_ind' r) (go t) end) rs)
    | RFixed32 n v => H32 n v
    end.
End RecordInd.

Definition wire_type_of (r : record) : Z :=
  match r with RVarint _ _ => 0 | RFixed64 _ _ => 1 | RLen _ _ => 2 | RGroup _ _ => 3 | RFixed32 _ _ => 5 end.

(** The payload, without the leading tag. *)
Definition write_payload (r : record) : list Z :=
  match r with
  | RVarint _ v => write_varint v
  | RFixed64 _ v => write_le 8 v
  | RLen _ b => write_varint (Z.of_nat (length b)) ++ b
  | RGroup n rs => write_records rs ++ write_tag n 4
  | RFixed32 _ v => write_le 4 v
  end.

Lemma write_record_split r : write_record r = write_tag (number r) (wire_type_of r) ++ write_payload r.
Proof. destruct r; reflexivity. Qed.

Lemma fits_tag d r : fits d r -> 0 < 8 * number r + wire_type_of r < 2 ^ 32 /\ 0 <= number r < 2 ^ 29.
Proof. destruct 1; cbn [number wire_type_of]; lia. Qed.

Lemma skip_group_mono skip f : forall n l res f', skip_group skip f n l = Some res -> (f <= f')%nat ->
  skip_group skip f' n l = Some res.
Proof.
  induction f as [|f IH]; intros n l res f' H Hf; [discriminate|].
  destruct f' as [|f']; [lia|]. cbn [skip_group] in *.
  destruct (read_tag l) as [| |t rest]; try discriminate.
  destruct (tag_wire_type t =? 4); [exact H|].
  destruct (skip t rest) as [[u r]|]; [|discriminate].
  destruct (skip_group skip f n r) as [[us r']|] eqn:E; [|discriminate].
  rewrite (IH _ _ _ f' E) by lia. exact H.
Qed.

Lemma skip_group_app skip f (Hs : forall t l u r x, skip t l = Some (u, r) -> skip t (l ++ x) = Some (u, r ++ x)) :
  forall n l us r x, skip_group skip f n l = Some (us, r) -> skip_group skip f n (l ++ x) = Some (us, r ++ x).
Proof.
  induction f as [|f IH]; intros n l us r x H; [discriminate|]. cbn [skip_group] in *.
  destruct (read_tag l) as [| |t rest] eqn:E; try discriminate.
  rewrite (read_tag_app _ _ _ x E).
  destruct (tag_wire_type t =? 4).
  - destruct (tag_number t =? n); [|discriminate]. injection H as <- <-. reflexivity.
  - destruct (skip t rest) as [[u r1]|] eqn:E1; [|discriminate].
    rewrite (Hs _ _ _ _ x E1).
    destruct (skip_group skip f n r1) as [[us' r']|] eqn:E2; [|discriminate].
    rewrite (IH _ _ _ _ x E2). injection H as <- <-. reflexivity.
Qed.

Lemma skip_group_suffix skip f (Hs : forall t l u r, skip t l = Some (u, r) -> exists p, l = p ++ r) :
  forall n l us r, skip_group skip f n l = Some (us, r) -> exists a p, l = (a :: p) ++ r.
Proof.
  induction f as [|f IH]; intros n l us r H; [discriminate|]. cbn [skip_group] in *.
  destruct (read_tag l) as [| |t rest] eqn:E; try discriminate.
  destruct (read_tag_suffix _ _ _ E) as ((a & p & ->) & _).
  destruct (tag_wire_type t =? 4).
  - destruct (tag_number t =? n); [|discriminate]. injection H as <- <-. eauto.
  - destruct (skip t rest) as [[u r1]|] eqn:E1; [|discriminate].
    destruct (Hs _ _ _ _ E1) as (q & ->).
    destruct (skip_group skip f n r1) as [[us' r']|] eqn:E2; [|discriminate].
    destruct (IH _ _ _ _ E2) as (b & q' & ->). injection H as <- <-.
    exists a, (p ++ q ++ b :: q'). cbn [app]. rewrite <- !app_assoc. reflexivity.
Qed.

Lemma skip_field_eq d t l : skip_field d t l =
  let n := tag_number t in
  let wt := tag_wire_type t in
  if wt =? 0 then
    match read_varint64 l with Some (v, r) => Some (RVarint n v, r) | None => None end
  else if wt =? 1 then
    match read_le 8 l with Some (v, r) => Some (RFixed64 n v, r) | None => None end
  else if wt =? 2 then
    match read_varint32 l with
    | Some (len, r) =>
        if (len <? 2 ^ 31) && (len <=? Z.of_nat (length r))
        then Some (RLen n (firstn (Z.to_nat len) r), skipn (Z.to_nat len) r)
        else None
    | None => None
    end
  else if wt =? 3 then
    match d with
    | O => None
    | S d' => match skip_group (skip_field d') (S (length l)) n l with
              | Some (rs, r) => Some (RGroup n rs, r)
              | None => None
              end
    end
  else if wt =? 5 then
    match read_le 4 l with Some (v, r) => Some (RFixed32 n v, r) | None => None end
  else None.
Proof. destruct d; reflexivity. Qed.

Lemma firstn_app_le {A} k (l x : list A) : (k <= length l)%nat -> firstn k (l ++ x) = firstn k l.
Proof. intros H. rewrite firstn_app. replace (k - length l)%nat with 0%nat by lia. simpl. apply app_nil_r. Qed.
Lemma skipn_app_le {A} k (l x : list A) : (k <= length l)%nat -> skipn k (l ++ x) = skipn k l ++ x.
Proof. intros H. rewrite skipn_app. replace (k - length l)%nat with 0%nat by lia. reflexivity. Qed.

Lemma skip_field_app d : forall t l u r x,
  skip_field d t l = Some (u, r) -> skip_field d t (l ++ x) = Some (u, r ++ x).
Proof.
  induction d as [|d IH]; intros t l u r x; rewrite !skip_field_eq; cbv zeta.
  - destruct (tag_wire_type t =? 0); [|destruct (tag_wire_type t =? 1);
      [|destruct (tag_wire_type t =? 2); [|destruct (tag_wire_type t =? 3);
      [discriminate|destruct (tag_wire_type t =? 5); [|discriminate]]]]].
    + destruct (read_varint64 l) as [[v r']|] eqn:E; [|discriminate].
      rewrite (read_varint64_app _ _ _ x E). intros H. injection H as <- <-. reflexivity.
    + destruct (read_le 8 l) as [[v r']|] eqn:E; [|discriminate].
      rewrite (read_le_app _ _ _ _ x E). intros H. injection H as <- <-. reflexivity.
    + destruct (read_varint32 l) as [[v r']|] eqn:E; [|discriminate].
      rewrite (read_varint32_app _ _ _ x E).
      destruct (Z.ltb_spec v (2 ^ 31)); [|discriminate].
      destruct (Z.leb_spec v (Z.of_nat (length r'))); [|discriminate]. cbn [andb].
      intros H1. injection H1 as <- <-. rewrite app_length.
      rewrite (proj2 (Z.leb_le _ _)) by lia.
      rewrite firstn_app_le, skipn_app_le by lia. reflexivity.
    + destruct (read_le 4 l) as [[v r']|] eqn:E; [|discriminate].
      rewrite (read_le_app _ _ _ _ x E). intros H. injection H as <- <-. reflexivity.
  - destruct (tag_wire_type t =? 0); [|destruct (tag_wire_type t =? 1);
      [|destruct (tag_wire_type t =? 2); [|destruct (tag_wire_type t =? 3);
      [|destruct (tag_wire_type t =? 5); [|discriminate]]]]].
    + destruct (read_varint64 l) as [[v r']|] eqn:E; [|discriminate].
      rewrite (read_varint64_app _ _ _ x E). intros H. injection H as <- <-. reflexivity.
    + destruct (read_le 8 l) as [[v r']|] eqn:E; [|discriminate].
      rewrite (read_le_app _ _ _ _ x E). intros H. injection H as <- <-. reflexivity.
    + destruct (read_varint32 l) as [[v r']|] eqn:E; [|discriminate].
      rewrite (read_varint32_app _ _ _ x E).
      destruct (Z.ltb_spec v (2 ^ 31)); [|discriminate].
      destruct (Z.leb_spec v (Z.of_nat (length r'))); [|discriminate]. cbn [andb].
      intros H1. injection H1 as <- <-. rewrite app_length.
      rewrite (proj2 (Z.leb_le _ _)) by lia.
      rewrite firstn_app_le, skipn_app_le by lia. reflexivity.
    + destruct (skip_group (skip_field d) (S (length l)) (tag_number t) l) as [[us r']|] eqn:E; [|discriminate].
      pose proof (skip_group_app _ _ IH _ _ _ _ x E) as E'.
      rewrite (skip_group_mono _ _ _ _ _ (S (length (l ++ x))) E') by (rewrite app_length; lia).
      intros H. injection H as <- <-. reflexivity.
    + destruct (read_le 4 l) as [[v r']|] eqn:E; [|discriminate].
      rewrite (read_le_app _ _ _ _ x E). intros H. injection H as <- <-. reflexivity.
Qed.

Lemma skip_field_suffix d : forall t l u r, skip_field d t l = Some (u, r) -> exists p, l = p ++ r.
Proof.
  induction d as [|d IH]; intros t l u r; rewrite skip_field_eq; cbv zeta;
  (destruct (tag_wire_type t =? 0); [|destruct (tag_wire_type t =? 1);
      [|destruct (tag_wire_type t =? 2); [|destruct (tag_wire_type t =? 3);
      [|destruct (tag_wire_type t =? 5); [|discriminate]]]]]); try discriminate.
  all: try (destruct (read_varint64 l) as [[v r']|] eqn:E; [|discriminate]; intros H; injection H as <- <-;
            destruct (read_varint64_suffix _ _ _ E) as (a & p & ->); eexists; reflexivity).
  all: try (destruct (read_le _ l) as [[v r']|] eqn:E; [|discriminate]; intros H; injection H as <- <-;
            destruct (read_le_suffix _ _ _ _ E) as (p & -> & _); eexists; reflexivity).
  all: try (destruct (read_varint32 l) as [[v r']|] eqn:E; [|discriminate];
            destruct ((v <? 2 ^ 31) && (v <=? Z.of_nat (length r'))); [|discriminate];
            intros H; injection H as <- <-;
            destruct (read_varint32_suffix _ _ _ E) as (a & p & ->);
            exists ((a :: p) ++ firstn (Z.to_nat v) r'); rewrite <- app_assoc, firstn_skipn; reflexivity).
  destruct (skip_group (skip_field d) (S (length l)) (tag_number t) l) as [[us r']|] eqn:E; [|discriminate].
  intros H. injection H as <- <-. destruct (skip_group_suffix _ _ IH _ _ _ _ E) as (a & p & ->).
  eexists; reflexivity.
Qed.

Lemma tag_number_range t : 0 < t < 2 ^ 32 -> 0 <= tag_number t < 2 ^ 29.
Proof.
  intros H. unfold tag_number. split; [apply Z.div_pos; lia|]. apply Z.div_lt_upper_bound; lia.
Qed.

Lemma Forall_suffix {A} (P : A -> Prop) p r : Forall P (p ++ r) -> Forall P r.
Proof. intros H. apply Forall_app in H. tauto. Qed.

Lemma skip_group_fits skip f d (Hs : forall t l u r, Forall is_byte l -> 0 < t < 2 ^ 32 -> skip t l = Some (u, r) -> fits d u)
  (Hp : forall t l u r, skip t l = Some (u, r) -> exists p, l = p ++ r) :
  forall n l us r, Forall is_byte l -> skip_group skip f n l = Some (us, r) -> Forall (fits d) us.
Proof.
  induction f as [|f IH]; intros n l us r Hl H; [discriminate|]. cbn [skip_group] in *.
  destruct (read_tag l) as [| |t rest] eqn:E; try discriminate.
  destruct (read_tag_suffix _ _ _ E) as ((a & p & ->) & Ht).
  destruct (tag_wire_type t =? 4).
  - destruct (tag_number t =? n); [|discriminate]. injection H as <- <-. constructor.
  - destruct (skip t rest) as [[u r1]|] eqn:E1; [|discriminate].
    destruct (skip_group skip f n r1) as [[us' r']|] eqn:E2; [|discriminate]. injection H as <- <-.
    apply Forall_suffix in Hl. constructor; [eapply Hs; eauto|].
    destruct (Hp _ _ _ _ E1) as (q & ->). apply Forall_suffix in Hl. eapply IH; eauto.
Qed.

Lemma skip_field_fits d : forall t l u r, Forall is_byte l -> 0 < t < 2 ^ 32 ->
  skip_field d t l = Some (u, r) -> fits d u /\ number u = tag_number t /\ wire_type_of u = tag_wire_type t.
Proof.
  induction d as [|d IH]; intros t l u r Hl Ht; rewrite skip_field_eq; cbv zeta;
  pose proof (tag_number_range t Ht) as Hn; pose proof (tag_split t) as Hsp;
  (destruct (Z.eqb_spec (tag_wire_type t) 0) as [W|_]; [|destruct (Z.eqb_spec (tag_wire_type t) 1) as [W|_];
      [|destruct (Z.eqb_spec (tag_wire_type t) 2) as [W|_]; [|destruct (Z.eqb_spec (tag_wire_type t) 3) as [W|_];
      [|destruct (Z.eqb_spec (tag_wire_type t) 5) as [W|_]; [|discriminate]]]]]); try discriminate.
  all: try (destruct (read_varint64 l) as [[v r']|] eqn:E; [|discriminate]; intros H; injection H as <- <-;
            split; [constructor; [lia|eapply read_varint64_range; eauto]|auto]).
  all: try (destruct (read_le 8 l) as [[v r']|] eqn:E; [|discriminate]; intros H; injection H as <- <-;
            split; [constructor; [lia|exact (read_le_range _ _ _ _ Hl E)]|auto]).
  all: try (destruct (read_le 4 l) as [[v r']|] eqn:E; [|discriminate]; intros H; injection H as <- <-;
            split; [constructor; [lia|exact (read_le_range _ _ _ _ Hl E)]|auto]).
  all: try (destruct (read_varint32 l) as [[v r']|] eqn:E; [|discriminate];
            destruct (Z.ltb_spec v (2 ^ 31)); [|discriminate];
            destruct (Z.leb_spec v (Z.of_nat (length r'))); [|discriminate]; cbn [andb];
            intros H1; injection H1 as <- <-;
            destruct (read_varint32_suffix _ _ _ E) as (a & p & ->);
            apply Forall_suffix in Hl;
            split; [constructor; [lia| |]|auto];
            [rewrite firstn_length; apply read_varint32_range in E; lia
            |rewrite <- (firstn_skipn (Z.to_nat v) r') in Hl; apply Forall_app in Hl; tauto]).
  destruct (skip_group (skip_field d) (S (length l)) (tag_number t) l) as [[us r']|] eqn:E; [|discriminate].
  intros H. injection H as <- <-. split; [|auto]. constructor; [lia|].
  eapply skip_group_fits; [| |exact Hl|exact E].
  - intros. eapply IH; eauto.
  - intros. eapply skip_field_suffix; eauto.
Qed.

(** Reading a written record back. *)
Lemma concat_length_ge {A} (f : A -> list Z) (l : list A) :
  (forall a, In a l -> (1 <= length (f a))%nat) -> (length l <= length (concat (map f l)))%nat.
Proof.
  induction l as [|a l IH]; intros H; simpl; [lia|]. rewrite app_length.
  pose proof (H a (or_introl eq_refl)). assert (length l <= length (concat (map f l)))%nat; [|lia].
  apply IH. intros b Hb. apply H. right. auto.
Qed.

Lemma write_tag_nonempty n wt : 0 <= 8 * n + wt < 2 ^ 32 -> exists a p, write_tag n wt = a :: p.
Proof. intros H. eapply varint_nonempty, write_varint_ok. unfold make_tag. lia. Qed.

Lemma write_record_length d r : fits d r -> (1 <= length (write_record r))%nat.
Proof.
  intros H. rewrite write_record_split, app_length. destruct (fits_tag _ _ H) as [Ht _].
  destruct (write_tag_nonempty (number r) (wire_type_of r)) as (a & p & ->); [lia|]. simpl. lia.
Qed.

Lemma skip_write_field r : forall d x, fits d r ->
  skip_field d (8 * number r + wire_type_of r) (write_payload r ++ x) = Some (r, x).
Proof.
  induction r as [n v|n v|n b|n rs IH|n v] using record_ind'; intros d x H;
    rewrite skip_field_eq; cbv zeta; cbn [number wire_type_of write_payload];
    rewrite tag_number_make, tag_wire_type_make by lia; cbn [Z.eqb Pos.eqb]; inversion H; subst.
  - rewrite read_write_varint64 by auto. reflexivity.
  - rewrite (read_write_le 8) by (exact H4). reflexivity.
  - rewrite <- app_assoc. rewrite read_write_varint32 by lia. rewrite Z.mod_small by lia.
    rewrite (proj2 (Z.ltb_lt _ _)) by lia. rewrite app_length. rewrite (proj2 (Z.leb_le _ _)) by lia.
    cbn [andb]. rewrite Nat2Z.id. rewrite firstn_app_le, skipn_app_le by lia.
    rewrite firstn_all, skipn_all. reflexivity.
  - rename d0 into d. rewrite <- app_assoc.
    assert (G : forall f, (length rs < f)%nat ->
      skip_group (skip_field d) f n (write_records rs ++ write_tag n 4 ++ x) = Some (rs, x)).
    { clear H. revert IH H4. induction rs as [|r rs IHrs]; intros IH Hf f Hlen.
      - destruct f as [|f]; [lia|]. cbn [write_records map concat app skip_group].
        rewrite read_write_tag by lia. rewrite tag_number_make, tag_wire_type_make by lia.
        cbn [Z.eqb Pos.eqb]. rewrite Z.eqb_refl. reflexivity.
      - destruct f as [|f]; [simpl in Hlen; lia|].
        apply Forall_cons_iff in IH as [IH1 IH2]. apply Forall_cons_iff in Hf as [Hf1 Hf2].
        unfold write_records. cbn [map concat skip_group]. rewrite <- app_assoc.
        rewrite write_record_split, <- app_assoc.
        destruct (fits_tag _ _ Hf1) as [Ht _]. rewrite read_write_tag by lia.
        assert (W : tag_wire_type (8 * number r + wire_type_of r) =? 4 = false).
        { rewrite tag_wire_type_make by (destruct r; cbn; lia). destruct r; reflexivity. }
        rewrite W. rewrite IH1 by auto.
        change (concat (map write_record rs)) with (write_records rs).
        rewrite IHrs; auto. simpl in Hlen. lia. }
    rewrite G; [reflexivity|].
    rewrite !app_length.
    assert (length rs <= length (write_records rs))%nat; [|lia].
    apply concat_length_ge. intros a Ha. rewrite Forall_forall in H4. eapply write_record_length. apply H4; auto.
  - rewrite (read_write_le 4) by (exact H4). reflexivity.
Qed.

(** What is written is the format. *)
Lemma write_record_ok r : forall d, fits d r -> record_bytes r (write_record r).
Proof.
  induction r as [n v|n v|n b|n rs IH|n v] using record_ind'; intros d H; inversion H; subst; cbn [write_record].
  - constructor; [apply write_varint_ok; unfold make_tag; lia|apply write_varint_ok; auto].
  - rewrite (write_le_ok 8). constructor. apply write_varint_ok; unfold make_tag; lia.
  - constructor; apply write_varint_ok; unfold make_tag; lia.
  - constructor; try (apply write_varint_ok; unfold make_tag; lia).
    clear H. induction rs as [|r rs IHrs]; cbn [map concat]; [constructor|].
    apply Forall_cons_iff in IH as [IH1 IH2]. apply Forall_cons_iff in H4 as [Hf1 Hf2]. constructor; eauto.
  - rewrite (write_le_ok 4). constructor. apply write_varint_ok; unfold make_tag; lia.
Qed.

Lemma write_records_ok d rs : Forall (fits d) rs -> records_bytes rs (write_records rs).
Proof.
  induction 1; unfold write_records; cbn [map concat]; constructor; auto. eapply write_record_ok; eauto.
Qed.

Scheme record_bytes_mut := Minimality for record_bytes Sort Prop
  with records_bytes_mut := Minimality for records_bytes Sort Prop.

Lemma record_bytes_write r l : record_bytes r l -> forall d, fits d r -> l = write_record r.
Proof.
  intros H. pattern r, l.
  apply record_bytes_mut with (P0 := fun rs l => forall d, Forall (fits d) rs -> l = write_records rs); try exact H;
    clear; intros.
  - inversion H1; subst. cbn [write_record]. f_equal; apply varint_write; auto; unfold make_tag; lia.
  - inversion H0; subst. cbn [write_record]. rewrite <- (write_le_ok 8 v). f_equal. apply varint_write; auto; unfold make_tag; lia.
  - inversion H1; subst. cbn [write_record]. f_equal; [|f_equal]; apply varint_write; auto; unfold make_tag; lia.
  - inversion H3; subst. cbn [write_record]. f_equal; [|f_equal].
    + apply varint_write; auto; unfold make_tag; lia.
    + eapply H1; eauto.
    + apply varint_write; auto; unfold make_tag; lia.
  - inversion H0; subst. cbn [write_record]. rewrite <- (write_le_ok 4 v). f_equal. apply varint_write; auto; unfold make_tag; lia.
  - reflexivity.
  - inversion H3; subst. unfold write_records. cbn [map concat]. f_equal; eauto.
Qed.

Lemma records_bytes_write d rs : forall l, records_bytes rs l -> Forall (fits d) rs -> l = write_records rs.
Proof.
  induction rs as [|r rs IH]; intros l H Hf; inversion H; subst; [reflexivity|].
  inversion Hf; subst. unfold write_records. cbn [map concat]. f_equal.
  - eapply record_bytes_write; eauto.
  - apply IH; auto.
Qed.

Lemma write_record_bytes r : forall d, fits d r -> Forall is_byte (write_record r).
Proof.
  induction r as [n v|n v|n b|n rs IH|n v] using record_ind'; intros d H; inversion H; subst;
    cbn [write_record]; repeat (apply Forall_app; split);
    try (eapply varint_bytes, write_varint_ok; unfold make_tag; lia); try apply write_le_bytes; auto.
  clear H. induction rs as [|r rs IHrs]; cbn [map concat]; [constructor|].
  apply Forall_cons_iff in IH as [IH1 IH2]. apply Forall_cons_iff in H4 as [Hf1 Hf2]. apply Forall_app. split; eauto.
Qed.

Lemma record_size_ok r : forall d, fits d r -> record_size r = Z.of_nat (length (write_record r)).
Proof.
  induction r as [n v|n v|n b|n rs IH|n v] using record_ind'; intros d H; inversion H; subst;
    cbn [write_record record_size]; rewrite ?app_length, ?write_le_length, ?Nat2Z.inj_add; unfold write_tag;
    rewrite <- ?(varint_size32_ok (make_tag n _) (write_varint (make_tag n _)))
      by (try (apply write_varint_ok); unfold make_tag; lia).
  - rewrite <- (varint_size64_ok v (write_varint v)) by (try apply write_varint_ok; lia). lia.
  - lia.
  - rewrite <- (varint_size32_ok (Z.of_nat (length b)) (write_varint (Z.of_nat (length b))))
      by (try apply write_varint_ok; lia). lia.
  - assert (E : fold_right Z.add 0 (map record_size rs) = Z.of_nat (length (concat (map write_record rs)))).
    { clear H. induction rs as [|r rs IHrs]; cbn [map concat fold_right]; [reflexivity|].
      apply Forall_cons_iff in IH as [IH1 IH2]. apply Forall_cons_iff in H4 as [Hf1 Hf2].
      rewrite app_length, Nat2Z.inj_add, IHrs by auto. erewrite IH1 by eauto. reflexivity. }
    rewrite E. lia.
  - lia.
Qed.

Lemma records_size_ok d rs : Forall (fits d) rs -> records_size rs = Z.of_nat (length (write_records rs)).
Proof.
  induction 1 as [|r rs Hr Hrs IH]; [reflexivity|]. unfold records_size, write_records in *. cbn [map concat fold_right].
  rewrite app_length, Nat2Z.inj_add, IH. erewrite record_size_ok by eauto. reflexivity.
Qed.

(** * Decoding into records *)

Fixpoint decode_fuel (d f : nat) (l : list Z) : option (list record) :=
  match f with
  | O => None
  | S f' =>
      match read_tag l with
      | TEnd => Some []
      | TBad => None
      | TTag t r =>
          if tag_wire_type t =? 4 then None
          else match skip_field d t r with
               | None => None
               | Some (u, r') => match decode_fuel d f' r' with
                                 | None => None
                                 | Some us => Some (u :: us)
                                 end
               end
      end
  end.
Definition decode (d : nat) (l : list Z) : option (list record) := decode_fuel d (S (length l)) l.

Lemma read_skip_length d l t r u r' : read_tag l = TTag t r -> skip_field d t r = Some (u, r') ->
  (length r' < length l)%nat.
Proof.
  intros E1 E2. destruct (read_tag_suffix _ _ _ E1) as ((a & p & ->) & _).
  destruct (skip_field_suffix _ _ _ _ _ E2) as (q & ->). rewrite !app_length. simpl. lia.
Qed.

Lemma decode_fuel_irrel d f : forall f' l, (length l < f)%nat -> (length l < f')%nat ->
  decode_fuel d f l = decode_fuel d f' l.
Proof.
  induction f as [|f IH]; intros f' l H H'; [lia|]. destruct f' as [|f']; [lia|].
  cbn [decode_fuel]. destruct (read_tag l) as [| |t r] eqn:E; auto.
  destruct (tag_wire_type t =? 4); auto.
  destruct (skip_field d t r) as [[u r']|] eqn:E2; auto.
  pose proof (read_skip_length _ _ _ _ _ _ E E2). rewrite (IH f' r') by lia. reflexivity.
Qed.

Lemma decode_eq d l : decode d l =
  match read_tag l with
  | TEnd => Some []
  | TBad => None
  | TTag t r =>
      if tag_wire_type t =? 4 then None
      else match skip_field d t r with
           | None => None
           | Some (u, r') => match decode d r' with None => None | Some us => Some (u :: us) end
           end
  end.
Proof.
  unfold decode at 1. cbn [decode_fuel]. destruct (read_tag l) as [| |t r] eqn:E; auto.
  destruct (tag_wire_type t =? 4); auto.
  destruct (skip_field d t r) as [[u r']|] eqn:E2; auto.
  pose proof (read_skip_length _ _ _ _ _ _ E E2). unfold decode.
  rewrite (decode_fuel_irrel d (length l) (S (length r'))) by lia. reflexivity.
Qed.

Lemma decode_nil d : decode d [] = Some [].
Proof. reflexivity. Qed.

Lemma decode_app d x : forall l us, decode d l = Some us ->
  decode d (l ++ x) = match decode d x with Some vs => Some (us ++ vs) | None => None end.
Proof.
  intros l. remember (length l) as n eqn:Hn. revert l Hn.
  induction n as [n IH] using (well_founded_induction lt_wf). intros l Hn us H.
  rewrite decode_eq in H. destruct (read_tag l) as [| |t r] eqn:E; try discriminate.
  - injection H as <-. destruct l as [|a l].
    + cbn [app]. destruct (decode d x); reflexivity.
    + unfold read_tag in E. destruct (read_varint32 (a :: l)) as [[t r]|]; [destruct (t =? 0)|]; discriminate.
  - rewrite decode_eq. rewrite (read_tag_app _ _ _ x E).
    destruct (tag_wire_type t =? 4); [discriminate|].
    destruct (skip_field d t r) as [[u r']|] eqn:E2; [|discriminate].
    rewrite (skip_field_app _ _ _ _ _ x E2).
    destruct (decode d r') as [us'|] eqn:E3; [|discriminate]. injection H as <-.
    pose proof (read_skip_length _ _ _ _ _ _ E E2).
    rewrite (IH (length r') ltac:(lia) r' eq_refl us' E3). destruct (decode d x); reflexivity.
Qed.

Lemma decode_write d rs : forall x, Forall (fits d) rs ->
  decode d (write_records rs ++ x) = match decode d x with Some vs => Some (rs ++ vs) | None => None end.
Proof.
  induction rs as [|r rs IH]; intros x H.
  - change (write_records [] ++ x) with x. destruct (decode d x); reflexivity.
  - inversion H; subst. unfold write_records. cbn [map concat]. rewrite <- app_assoc.
    rewrite write_record_split, <- app_assoc. rewrite decode_eq.
    destruct (fits_tag _ _ H2) as [Ht _]. rewrite read_write_tag by lia.
    assert (W : tag_wire_type (8 * number r + wire_type_of r) =? 4 = false).
    { rewrite tag_wire_type_make by (destruct r; cbn; lia). destruct r; reflexivity. }
    rewrite W, skip_write_field by auto.
    change (concat (map write_record rs)) with (write_records rs). rewrite IH by auto.
    destruct (decode d x); reflexivity.
Qed.

Lemma decode_written d rs : Forall (fits d) rs -> decode d (write_records rs) = Some rs.
Proof.
  intros H. rewrite <- (app_nil_r (write_records rs)). rewrite decode_write by auto.
  rewrite decode_nil, app_nil_r. reflexivity.
Qed.

Lemma decode_fits d : forall l us, Forall is_byte l -> decode d l = Some us -> Forall (fits d) us.
Proof.
  intros l. remember (length l) as n eqn:Hn. revert l Hn.
  induction n as [n IH] using (well_founded_induction lt_wf). intros l Hn us Hl H.
  rewrite decode_eq in H. destruct (read_tag l) as [| |t r] eqn:E; try discriminate.
  - injection H as <-. constructor.
  - destruct (tag_wire_type t =? 4); [discriminate|].
    destruct (skip_field d t r) as [[u r']|] eqn:E2; [|discriminate].
    destruct (decode d r') as [us'|] eqn:E3; [|discriminate]. injection H as <-.
    pose proof (read_skip_length _ _ _ _ _ _ E E2).
    destruct (read_tag_suffix _ _ _ E) as ((a & p & ->) & Ht). apply Forall_suffix in Hl.
    constructor; [eapply skip_field_fits; eauto|].
    destruct (skip_field_suffix _ _ _ _ _ E2) as (q & ->). apply Forall_suffix in Hl.
    apply (IH (length r') ltac:(lia) r' eq_refl us' Hl E3).
Qed.

Lemma decode_nonempty d l : l <> [] -> decode d l <> Some [].
Proof.
  intros Hl H. rewrite decode_eq in H. destruct (read_tag l) as [| |t r] eqn:E; try discriminate.
  - destruct l; [congruence|]. unfold read_tag in E.
    destruct (read_varint32 (z :: l)) as [[t r]|]; [destruct (t =? 0)|]; discriminate.
  - destruct (tag_wire_type t =? 4); [discriminate|].
    destruct (skip_field d t r) as [[u r']|]; [|discriminate].
    destruct (decode d r'); discriminate.
Qed.

(** * Decoding with lengths that may pass the end

    The records of fields for which [clip] holds are cut at the end of the enclosing message (PushLimit). *)

Section Clip.
  Context (clip : Z -> bool).

  Definition skip_clip (d : nat) (t : Z) (l : list Z) : option (record * list Z) :=
    if (tag_wire_type t =? 2) && clip (tag_number t) then
      match read_varint32 l with
      | Some (len, r) => Some (RLen (tag_number t) (firstn (push_limit len r) r), skipn (push_limit len r) r)
      | None => None
      end
    else skip_field d t l.

  Fixpoint clipped_fuel (d f : nat) (l : list Z) : option (list record) :=
    match f with
    | O => None
    | S f' =>
        match read_tag l with
        | TEnd => Some []
        | TBad => None
        | TTag t r =>
            if tag_wire_type t =? 4 then None
            else match skip_clip d t r with
                 | None => None
                 | Some (u, r') => match clipped_fuel d f' r' with
                                   | None => None
                                   | Some us => Some (u :: us)
                                   end
                 end
        end
    end.
  Definition clipped (d : nat) (l : list Z) : option (list record) := clipped_fuel d (S (length l)) l.

  Lemma skip_clip_suffix d t l u r : skip_clip d t l = Some (u, r) -> exists p, l = p ++ r.
  Proof.
    unfold skip_clip. destruct (_ && _); [|apply skip_field_suffix].
    destruct (read_varint32 l) as [[len r1]|] eqn:E; [|discriminate]. intros H.
    assert (r = skipn (push_limit len r1) r1) by congruence. subst r.
    destruct (read_varint32_suffix _ _ _ E) as (a & p & ->).
    exists ((a :: p) ++ firstn (push_limit len r1) r1). rewrite <- app_assoc, firstn_skipn. reflexivity.
  Qed.

  Lemma read_clip_length d l t r u r' : read_tag l = TTag t r -> skip_clip d t r = Some (u, r') ->
    (length r' < length l)%nat.
  Proof.
    intros E1 E2. destruct (read_tag_suffix _ _ _ E1) as ((a & p & ->) & _).
    destruct (skip_clip_suffix _ _ _ _ _ E2) as (q & ->). rewrite !app_length. simpl. lia.
  Qed.

  Lemma clipped_fuel_irrel d f : forall f' l, (length l < f)%nat -> (length l < f')%nat ->
    clipped_fuel d f l = clipped_fuel d f' l.
  Proof.
    induction f as [|f IH]; intros f' l H H'; [lia|]. destruct f' as [|f']; [lia|].
    cbn [clipped_fuel]. destruct (read_tag l) as [| |t r] eqn:E; auto.
    destruct (tag_wire_type t =? 4); auto.
    destruct (skip_clip d t r) as [[u r']|] eqn:E2; auto.
    pose proof (read_clip_length _ _ _ _ _ _ E E2). rewrite (IH f' r') by lia. reflexivity.
  Qed.

  Lemma clipped_eq d l : clipped d l =
    match read_tag l with
    | TEnd => Some []
    | TBad => None
    | TTag t r =>
        if tag_wire_type t =? 4 then None
        else match skip_clip d t r with
             | None => None
             | Some (u, r') => match clipped d r' with None => None | Some us => Some (u :: us) end
             end
    end.
  Proof.
    unfold clipped at 1. cbn [clipped_fuel]. destruct (read_tag l) as [| |t r] eqn:E; auto.
    destruct (tag_wire_type t =? 4); auto.
    destruct (skip_clip d t r) as [[u r']|] eqn:E2; auto.
    pose proof (read_clip_length _ _ _ _ _ _ E E2). unfold clipped.
    rewrite (clipped_fuel_irrel d (length l) (S (length r'))) by lia. reflexivity.
  Qed.

  (** A record that is all there is not cut. *)
  Lemma skip_clip_whole d t l u r : skip_field d t l = Some (u, r) -> skip_clip d t l = Some (u, r).
  Proof.
    intros H. unfold skip_clip. destruct (tag_wire_type t =? 2) eqn:W; [|exact H].
    destruct (clip (tag_number t)); [|exact H]. cbn [andb].
    rewrite skip_field_eq in H. cbv zeta in H. apply Z.eqb_eq in W. rewrite W in H. cbn [Z.eqb Pos.eqb] in H.
    destruct (read_varint32 l) as [[len r1]|] eqn:E; [|discriminate].
    destruct (Z.ltb_spec len (2 ^ 31)) as [L1|]; [|discriminate].
    destruct (Z.leb_spec len (Z.of_nat (length r1))) as [L2|]; [|discriminate]. cbn [andb] in H.
    apply read_varint32_range in E. unfold push_limit. destruct (Z.ltb_spec len (2 ^ 31)); [|lia].
    rewrite Nat.min_l by lia. exact H.
  Qed.

  Lemma decode_clipped d l rs : decode d l = Some rs -> clipped d l = Some rs.
  Proof.
    remember (length l) as n eqn:Hn. revert l rs Hn.
    induction n as [n IH] using (well_founded_induction lt_wf). intros l rs Hn H.
    rewrite decode_eq in H. rewrite clipped_eq. destruct (read_tag l) as [| |t r] eqn:E; auto.
    destruct (tag_wire_type t =? 4); [discriminate|].
    destruct (skip_field d t r) as [[u r']|] eqn:E2; [|discriminate].
    rewrite (skip_clip_whole _ _ _ _ _ E2).
    destruct (decode d r') as [us|] eqn:E3; [|discriminate].
    pose proof (read_skip_length _ _ _ _ _ _ E E2).
    rewrite (IH (length r') ltac:(lia) r' us eq_refl E3). exact H.
  Qed.

  Lemma skip_field_kind d t l u r : skip_field d t l = Some (u, r) ->
    number u = tag_number t /\ wire_type_of u = tag_wire_type t.
  Proof.
    rewrite skip_field_eq. cbv zeta.
    destruct (Z.eqb_spec (tag_wire_type t) 0) as [W|_]; [|destruct (Z.eqb_spec (tag_wire_type t) 1) as [W|_];
    [|destruct (Z.eqb_spec (tag_wire_type t) 2) as [W|_]; [|destruct (Z.eqb_spec (tag_wire_type t) 3) as [W|_];
    [|destruct (Z.eqb_spec (tag_wire_type t) 5) as [W|_]; [|discriminate]]]]]; rewrite W.
    - destruct (read_varint64 l) as [[v r1]|]; [|discriminate]. intros H; injection H as <- <-. auto.
    - destruct (read_le 8 l) as [[v r1]|]; [|discriminate]. intros H; injection H as <- <-. auto.
    - destruct (read_varint32 l) as [[v r1]|]; [|discriminate].
      destruct (_ && _); [|discriminate]. intros H; injection H as <- <-. auto.
    - destruct d; [discriminate|].
      destruct (skip_group _ _ _ _) as [[v r1]|]; [|discriminate]. intros H; injection H as <- <-. auto.
    - destruct (read_le 4 l) as [[v r1]|]; [|discriminate]. intros H; injection H as <- <-. auto.
  Qed.

  (** In the beginning of whole records, none of them one that would be cut, nothing is cut. *)
  Lemma clipped_prefix d b : forall a rs, decode d (a ++ b) = Some rs ->
    Forall (fun r => match r with RLen n _ => clip n = false | _ => True end) rs -> clipped d a = decode d a.
  Proof.
    intros a. remember (length a) as n eqn:Hn. revert a Hn.
    induction n as [n IH] using (well_founded_induction lt_wf). intros a Hn rs H F.
    rewrite clipped_eq, decode_eq. destruct (read_tag a) as [| |t r] eqn:E; auto.
    destruct (tag_wire_type t =? 4) eqn:W4; auto.
    rewrite decode_eq in H. rewrite (read_tag_app _ _ _ b E), W4 in H.
    destruct (skip_field d t (r ++ b)) as [[u r']|] eqn:E2; [|discriminate].
    destruct (decode d r') as [us|] eqn:E3; [|discriminate]. injection H as <-.
    apply Forall_cons_iff in F as [Fu F].
    assert (S1 : skip_clip d t r = skip_field d t r).
    { unfold skip_clip. destruct (Z.eqb_spec (tag_wire_type t) 2) as [W|]; [|reflexivity].
      destruct (skip_field_kind _ _ _ _ _ E2) as [N1 N2]. rewrite W in N2.
      destruct u; try discriminate. cbn [number] in N1. rewrite <- N1, Fu. reflexivity. }
    rewrite S1. destruct (skip_field d t r) as [[u1 r1]|] eqn:E4; auto.
    rewrite (skip_field_app _ _ _ _ _ b E4) in E2. assert (r' = r1 ++ b) by congruence. subst r'.
    pose proof (read_skip_length _ _ _ _ _ _ E E4).
    rewrite (IH (length r1) ltac:(lia) r1 eq_refl us E3 F). reflexivity.
  Qed.

  Lemma clipped_fits d : forall l us, Forall is_byte l -> clipped d l = Some us ->
    Forall (fun u => fits d u \/ match u with RLen n b => clip n = true /\ Forall is_byte b | _ => False end) us.
  Proof.
    intros l. remember (length l) as n eqn:Hn. revert l Hn.
    induction n as [n IH] using (well_founded_induction lt_wf). intros l Hn us Hl H.
    rewrite clipped_eq in H. destruct (read_tag l) as [| |t r] eqn:E; try discriminate.
    - injection H as <-. constructor.
    - destruct (tag_wire_type t =? 4); [discriminate|].
      destruct (skip_clip d t r) as [[u r']|] eqn:E2; [|discriminate].
      destruct (clipped d r') as [us'|] eqn:E3; [|discriminate]. injection H as <-.
      pose proof (read_clip_length _ _ _ _ _ _ E E2).
      destruct (read_tag_suffix _ _ _ E) as ((a & p & ->) & Ht). apply Forall_suffix in Hl.
      constructor.
      + unfold skip_clip in E2. destruct ((tag_wire_type t =? 2) && clip (tag_number t)) eqn:C.
        * right. apply andb_prop in C as [_ C].
          destruct (read_varint32 r) as [[len r1]|] eqn:E4; [|discriminate]. injection E2 as <- <-. split; auto.
          destruct (read_varint32_suffix _ _ _ E4) as (a1 & p1 & ->). apply Forall_suffix in Hl.
          rewrite <- (firstn_skipn (push_limit len r1) r1) in Hl. apply Forall_app in Hl. tauto.
        * left. eapply skip_field_fits; eauto.
      + destruct (skip_clip_suffix _ _ _ _ _ E2) as (q & ->). apply Forall_suffix in Hl.
        apply (IH (length r') ltac:(lia) r' eq_refl us' Hl E3).
  Qed.
End Clip.
