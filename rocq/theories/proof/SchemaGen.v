(** What the protocol-buffer compiler makes of a schema, and what that code does, for every schema:
    reading. *)
From Verif.model Require Import Base Wire SchemaCode.
From Verif.spec Require Import WireSpec.
From Verif.proof Require Import WireProof.
Local Open Scope Z_scope.

Definition kind_of (t : ftype) : kind :=
  match t with TFloat => KFloat | TUint64 => KU64 | TUint32 => KU32 | TInt32 => KI32 end.
Definition wt_of (t : ftype) : Z := match t with TFloat => 5 | _ => 0 end.
Definition is_rep (f : field) : bool := match f_label f with Repeated => true | Required => false end.
Definition tag_of (f : field) : Z := 8 * f_number f + wt_of (f_type f).

Fixpoint mapi {B} (g : nat -> field -> option field -> B) (i : nat) (sch : schema) : list B :=
  match sch with [] => [] | f :: t => g i f (hd_error t) :: mapi g (S i) t end.

Fixpoint indices (b : bool) (i : nat) (sch : schema) : list nat :=
  match sch with
  | [] => []
  | f :: t => if Bool.eqb (is_rep f) b then i :: indices b (S i) t else indices b (S i) t
  end.

Definition gen_case (i : nat) (f : field) (g : option field) : pcase :=
  PCase (f_number f) (wt_of (f_type f)) (kind_of (f_type f)) i
    (if is_rep f then Some (tag_of f, kind_of (f_type f)) else None)
    ((if is_rep f then [(tag_of f, i)] else [])
       ++ match g with Some g => [(tag_of g, S i)] | None => [] end)
    (match g with Some _ => false | None => true end).

Definition gen_write (i : nat) (f : field) (g : option field) : sstmt :=
  if is_rep f then SRep i (f_number f) (kind_of (f_type f)) else SOne i (f_number f) (kind_of (f_type f)).

Fixpoint gen_size (b : bool) (i : nat) (sch : schema) : list zstmt :=
  match sch with
  | [] => []
  | f :: t => (if Bool.eqb (is_rep f) b
               then [if is_rep f then ZRep i 1 (kind_of (f_type f)) else ZOne i 1 (kind_of (f_type f))]
               else []) ++ gen_size b (S i) t
  end.

Fixpoint gen_init (i : nat) (sch : schema) : Z :=
  match sch with
  | [] => 0
  | f :: t => Z.lor (if is_rep f then 0 else 2 ^ Z.of_nat i) (gen_init (S i) t)
  end.

Definition protoc (sch : schema) : code := {|
  c_has := mapi (fun i f _ => if is_rep f then None else Some (2 ^ Z.of_nat i)) 0 sch;
  c_clear_rep := indices true 0 sch;
  c_parse := mapi gen_case 0 sch;
  c_write := mapi gen_write 0 sch;
  c_write_array := mapi gen_write 0 sch;
  c_size_one := gen_size false 0 sch;
  c_size_rep := gen_size true 0 sch;
  c_merge_rep := indices true 0 sch;
  c_merge_one := indices false 0 sch;
  c_init := gen_init 0 sch |}.

(** Field numbers distinct, with tags of one byte; has-bits in one byte. *)
Definition wf (sch : schema) : Prop :=
  NoDup (map f_number sch) /\ Forall (fun f => 1 <= f_number f < 16) sch /\ (length sch <= 8)%nat.

Lemma nth_error_mapi {B} (g : nat -> field -> option field -> B) sch : forall i j,
  nth_error (mapi g i sch) j =
  match nth_error sch j with Some f => Some (g (i + j)%nat f (nth_error sch (S j))) | None => None end.
Proof.
  induction sch as [|f t IH]; intros i [|j]; cbn [mapi nth_error]; auto.
  - rewrite Nat.add_0_r. destruct t; reflexivity.
  - rewrite IH. destruct (nth_error t j); auto. rewrite Nat.add_succ_r. reflexivity.
Qed.

Lemma nth_error_vget {A} (l : list A) i a : nth_error l i = Some a -> vget l i = Ok a.
Proof. unfold vget. intros ->. reflexivity. Qed.

(** * Slots *)

Definition shape_ok (f : field) (s : slot) : Prop :=
  match f_label f, s with Required, One _ => True | Repeated, Many _ => True | _, _ => False end.
Definition shaped (sch : schema) (m : message) : Prop := Forall2 shape_ok sch (slots m).

Fixpoint modify (i : nat) (g : slot -> slot) (l : list slot) : list slot :=
  match l, i with
  | [], _ => []
  | s :: t, O => g s :: t
  | s :: t, S j => s :: modify j g t
  end.
Definition put (m : message) (i : nat) (v : Z) : message :=
  Message (modify i (add_value v) (slots m)) (unknown m).

Lemma modify_app x s y g : modify (length x) g (x ++ s :: y) = x ++ g s :: y.
Proof. induction x; simpl; congruence. Qed.

Lemma nth_modify g : forall i j l, nth_error (modify i g l) j =
  if Nat.eqb i j then option_map g (nth_error l j) else nth_error l j.
Proof.
  induction i as [|i IH]; intros [|j] [|s l]; simpl; auto; destruct (Nat.eqb i j); auto; rewrite IH;
    destruct (Nat.eqb_spec i j); try congruence; auto.
Qed.

Lemma modify_upd g : forall i l s, nth_error l i = Some s -> modify i g l = upd l i (g s).
Proof. induction i as [|i IH]; intros [|a l] s H; simpl in *; try discriminate; [congruence|f_equal; auto]. Qed.

Lemma Forall2_nth {A B} (R : A -> B -> Prop) : forall l l' i a, Forall2 R l l' -> nth_error l i = Some a ->
  exists b, nth_error l' i = Some b /\ R a b.
Proof.
  intros l l' i a H. revert i. induction H as [|x y l l' Hxy H IH]; intros [|i] E; simpl in *; try discriminate.
  - injection E as <-. eauto.
  - apply IH. auto.
Qed.

Lemma Forall2_modify {A} (R : A -> slot -> Prop) g : (forall a s, R a s -> R a (g s)) ->
  forall i l l', Forall2 R l l' -> Forall2 R l (modify i g l').
Proof.
  intros Hg i l l' H. revert i. induction H as [|x y l l' Hxy H IH]; intros [|i]; simpl; constructor; auto.
Qed.

Lemma shape_add f v s : shape_ok f s -> shape_ok f (add_value v s).
Proof. unfold shape_ok. destruct (f_label f), s; auto. Qed.

Lemma shaped_put sch m i v : shaped sch m -> shaped sch (put m i v).
Proof. intros H. unfold shaped, put. cbn [slots]. apply Forall2_modify; auto. intros. apply shape_add. auto. Qed.

Lemma store_ok sch m i f v : shaped sch m -> nth_error sch i = Some f -> store (is_rep f) m i v = Ok (put m i v).
Proof.
  intros Hm Hf. destruct (Forall2_nth _ _ _ _ _ Hm Hf) as (s & Hs & Hsh).
  unfold store. rewrite (nth_error_vget _ _ _ Hs). cbn [obind].
  assert (L : (i <? length (slots m))%nat = true).
  { apply Nat.ltb_lt. apply nth_error_Some. congruence. }
  unfold shape_ok in Hsh. unfold is_rep, put, vset. rewrite (modify_upd _ _ _ _ Hs), L.
  destruct (f_label f), s; try contradiction; reflexivity.
Qed.

Lemma shaped_empty sch : shaped sch (empty_message sch).
Proof.
  unfold shaped, empty_message. cbn [slots]. induction sch as [|f t IH]; simpl; constructor; auto.
  unfold shape_ok. destruct (f_label f); exact I.
Qed.

Lemma ctor_empty sch : ctor (protoc sch) = empty_message sch.
Proof.
  unfold ctor, protoc, empty_message. cbn [c_has]. f_equal. generalize 0%nat.
  induction sch as [|f t IH]; intros i; simpl; auto. rewrite IH. f_equal. unfold is_rep. destruct (f_label f); reflexivity.
Qed.

(** * What one record does *)

Fixpoint find_field (i : nat) (n : Z) (sch : schema) : option (nat * field) :=
  match sch with
  | [] => None
  | f :: t => if f_number f =? n then Some (i, f) else find_field (S i) n t
  end.

Fixpoint unpack (fuel : nat) (k : kind) (l : list Z) : option (list Z) :=
  match l with
  | [] => Some []
  | _ => match fuel with
         | O => None
         | S f => match read_prim k l with
                  | None => None
                  | Some (v, r) => match unpack f k r with Some vs => Some (v :: vs) | None => None end
                  end
         end
  end.

Definition put_all (m : message) (i : nat) (vs : list Z) : message := fold_left (fun m v => put m i v) vs m.
Definition keep (m : message) (r : record) : message := Message (slots m) (unknown m ++ [r]).

Definition absorb (sch : schema) (m : message) (r : record) : option message :=
  match find_field 0 (number r) sch with
  | None => Some (keep m r)
  | Some (i, f) =>
      match r with
      | RVarint _ v => match f_type f with
                       | TFloat => Some (keep m r)
                       | t => Some (put m i (of_varint t v))
                       end
      | RFixed32 _ v => match f_type f with TFloat => Some (put m i v) | _ => Some (keep m r) end
      | RLen _ b => if is_rep f
                    then match unpack (length b) (kind_of (f_type f)) b with
                         | Some vs => Some (put_all m i vs)
                         | None => None
                         end
                    else Some (keep m r)
      | _ => Some (keep m r)
      end
  end.

Fixpoint absorb_all (sch : schema) (m : message) (rs : list record) : option message :=
  match rs with
  | [] => Some m
  | r :: t => match absorb sch m r with Some m' => absorb_all sch m' t | None => None end
  end.

Lemma absorb_all_app sch rs : forall m rs', absorb_all sch m (rs ++ rs') =
  match absorb_all sch m rs with Some m' => absorb_all sch m' rs' | None => None end.
Proof. induction rs as [|r rs IH]; intros m rs'; cbn; auto. destruct (absorb sch m r); auto. Qed.

Lemma shaped_put_all sch i vs : forall m, shaped sch m -> shaped sch (put_all m i vs).
Proof. induction vs as [|v vs IH]; intros m H; cbn; auto. apply IH, shaped_put, H. Qed.

Lemma find_field_some n sch : forall i j f, find_field i n sch = Some (j, f) ->
  (i <= j)%nat /\ nth_error sch (j - i) = Some f /\ f_number f = n.
Proof.
  induction sch as [|g t IH]; intros i j f H; cbn in *; [discriminate|].
  destruct (Z.eqb_spec (f_number g) n).
  - injection H as <- <-. rewrite Nat.sub_diag. auto.
  - apply IH in H as (A & B & C). split; [lia|]. split; auto.
    replace (j - i)%nat with (S (j - S i)) by lia. exact B.
Qed.

Lemma find_field_none n sch : forall i, find_field i n sch = None -> forall f, In f sch -> f_number f <> n.
Proof.
  induction sch as [|g t IH]; intros i H f Hf; cbn in *; [contradiction|].
  destruct (Z.eqb_spec (f_number g) n); [discriminate|]. destruct Hf as [<-|Hf]; eauto.
Qed.

Lemma find_field_nth sch : NoDup (map f_number sch) -> forall i j f, nth_error sch j = Some f ->
  find_field i (f_number f) sch = Some ((i + j)%nat, f).
Proof.
  induction sch as [|g t IH]; intros Hnd i [|j] f H; cbn in *; try discriminate; inversion Hnd; subst.
  - injection H as <-. rewrite Z.eqb_refl, Nat.add_0_r. reflexivity.
  - destruct (Z.eqb_spec (f_number g) (f_number f)) as [E|_].
    + exfalso. apply H2. rewrite E. apply in_map. eapply nth_error_In; eauto.
    + rewrite (IH H3 (S i) j f H). f_equal. f_equal. lia.
Qed.

Lemma shaped_absorb sch m r m' : shaped sch m -> absorb sch m r = Some m' -> shaped sch m'.
Proof.
  intros Hm. unfold absorb. destruct (find_field 0 (number r) sch) as [[i f]|].
  - destruct r; try (intros H; injection H as <-; exact Hm).
    + destruct (f_type f); intros H; injection H as <-; try exact Hm; apply shaped_put, Hm.
    + destruct (is_rep f); [|intros H; injection H as <-; exact Hm].
      destruct (unpack _ _ _); [|discriminate]. intros H; injection H as <-. apply shaped_put_all, Hm.
    + destruct (f_type f); intros H; injection H as <-; try exact Hm; apply shaped_put, Hm.
  - intros H; injection H as <-. exact Hm.
Qed.

(** * The parser *)

Lemma of_varint_signed v : 0 <= v -> (if v mod 2 ^ 32 <? 2 ^ 31 then v mod 2 ^ 32 else v mod 2 ^ 32 - 2 ^ 32)
  = of_varint TInt32 v.
Proof.
  intros Hv. cbn [of_varint]. pose proof (Z.mod_pos_bound v (2 ^ 32) ltac:(lia)) as B.
  rewrite <- (Z.add_mod_idemp_l v (2 ^ 31) (2 ^ 32)) by lia.
  set (w := v mod 2 ^ 32) in *. clearbody w. destruct (Z.ltb_spec w (2 ^ 31)).
  - rewrite Z.mod_small by lia. lia.
  - assert (E : (w + 2 ^ 31) mod 2 ^ 32 = w + 2 ^ 31 - 2 ^ 32) by (symmetry; apply Z.mod_unique with 1; lia).
    rewrite E. lia.
Qed.

Section Parser.
  Context (sch : schema) (Hwf : wf sch) (room : list Z -> nat) (d : nat).

  Definition packs (n : Z) : bool :=
    match find_field 0 n sch with Some (_, f) => is_rep f | None => false end.

  Definition P (m : message) (l : list Z) : option message :=
    match clipped packs d l with Some rs => absorb_all sch m rs | None => None end.
  Definition R (i : nat) (m : message) (l : list Z) : option message :=
    match nth_error sch i with
    | Some f => match read_prim (kind_of (f_type f)) l with Some (v, r) => P (put m i v) r | None => None end
    | None => None
    end.

  Lemma P_nil m : P m [] = Some m.
  Proof. reflexivity. Qed.

  Lemma clip_wt t r ty : tag_wire_type t = wt_of ty -> skip_clip packs d t r = skip_field d t r.
  Proof. intros H. unfold skip_clip. rewrite H. destruct ty; reflexivity. Qed.

  (** Reading a scalar, and reading it as a record. *)
  Lemma read_prim_skip i f t r : nth_error sch i = Some f -> tag_number t = f_number f ->
    tag_wire_type t = wt_of (f_type f) ->
    match read_prim (kind_of (f_type f)) r with
    | None => skip_field d t r = None
    | Some (v, r') => exists u, skip_field d t r = Some (u, r') /\ forall m, absorb sch m u = Some (put m i v)
    end.
  Proof.
    intros Hf Hn Hw. rewrite skip_field_eq. cbv zeta. rewrite Hn, Hw. destruct Hwf as (Hnd & _).
    pose proof (find_field_nth sch Hnd 0 i f Hf) as Hff. cbn [Nat.add] in Hff.
    destruct (f_type f) eqn:E; cbn [wt_of kind_of Z.eqb Pos.eqb read_prim].
    - destruct (read_le 4 r) as [[v r']|]; auto. eexists. split; [reflexivity|]. intros m.
      unfold absorb. cbn [number]. rewrite Hff, E. reflexivity.
    - destruct (read_varint64 r) as [[v r']|]; auto. eexists. split; [reflexivity|]. intros m.
      unfold absorb. cbn [number]. rewrite Hff, E. reflexivity.
    - rewrite read_varint_32_64. destruct (read_varint64 r) as [[v r']|] eqn:E1; auto.
      eexists. split; [reflexivity|]. intros m.
      unfold absorb. cbn [number]. rewrite Hff, E. reflexivity.
    - rewrite read_varint_32_64. destruct (read_varint64 r) as [[v r']|] eqn:E1; auto.
      eexists. split; [reflexivity|]. intros m.
      unfold absorb. cbn [number]. rewrite Hff, E. rewrite of_varint_signed; [reflexivity|].
      apply read_varint64_range in E1. lia.
  Qed.

  Lemma wt_of_not4 t : wt_of t =? 4 = false.
  Proof. destruct t; reflexivity. Qed.

  Lemma P_read i f t r m l : nth_error sch i = Some f -> read_tag l = TTag t r ->
    tag_number t = f_number f -> tag_wire_type t = wt_of (f_type f) -> P m l = R i m r.
  Proof.
    intros Hf Ht Hn Hw. unfold R, P. rewrite clipped_eq, Ht, Hf, Hw, wt_of_not4.
    rewrite (clip_wt t r (f_type f) Hw).
    pose proof (read_prim_skip i f t r Hf Hn Hw) as H.
    destruct (read_prim (kind_of (f_type f)) r) as [[v r']|].
    - destruct H as (u & -> & Ha). destruct (clipped packs d r') as [rs|]; auto. cbn [absorb_all]. rewrite Ha. reflexivity.
    - rewrite H. reflexivity.
  Qed.

  Lemma P_tagged i f m l : nth_error sch i = Some f -> P m (write_varint (tag_of f) ++ l) = R i m l.
  Proof.
    intros Hf. destruct Hwf as (_ & Hr & _). rewrite Forall_forall in Hr.
    pose proof (Hr f (nth_error_In _ _ Hf)) as Hn.
    assert (W : 0 <= wt_of (f_type f) < 8) by (destruct (f_type f); cbn; lia).
    apply P_read with f (tag_of f); auto.
    - apply (read_write_tag (f_number f) (wt_of (f_type f))). lia.
    - apply tag_number_make. auto.
    - apply tag_wire_type_make. auto.
  Qed.

  Lemma expect_tag_some i f m l l' : nth_error sch i = Some f -> expect_tag (tag_of f) l = Some l' ->
    P m l = R i m l' /\ (length l' < length l)%nat.
  Proof.
    intros Hf H. unfold expect_tag in H. apply take_prefix_spec in H. subst l. split.
    - apply P_tagged; auto.
    - destruct Hwf as (_ & Hr & _). rewrite Forall_forall in Hr.
      pose proof (Hr f (nth_error_In _ _ Hf)) as Hn.
      destruct (varint_nonempty (tag_of f) (write_varint (tag_of f))) as (a & p & ->).
      + apply write_varint_ok. unfold tag_of. destruct (f_type f); cbn [wt_of]; lia.
      + rewrite app_length. simpl. lia.
  Qed.

  Definition Pn (nx : next) (m : message) (l : list Z) : option message :=
    match nx with GoLoop => P m l | GoRead i => R i m l | GoDone => Some m end.

  Lemma after_case_ok i f m l nx l' : nth_error sch i = Some f ->
    after_case (gen_case i f (nth_error sch (S i))) l = (nx, l') ->
    Pn nx m l' = P m l /\ (length l' <= length l)%nat /\ (match nx with GoRead j => nth_error sch j <> None | _ => True end).
  Proof.
    intros Hf. unfold after_case, gen_case. cbn [pc_expect pc_end].
    assert (T : forall es, (forall t j, In (t, j) es -> exists g, nth_error sch j = Some g /\ t = tag_of g) ->
      match try_expect es l with
      | Some (j, l1) => R j m l1 = P m l /\ (length l1 <= length l)%nat /\ nth_error sch j <> None
      | None => True
      end).
    { induction es as [|[t j] es IH]; intros He; cbn [try_expect]; auto.
      destruct (expect_tag t l) as [l1|] eqn:E.
      - destruct (He t j (or_introl eq_refl)) as (g & Hg & ->).
        destruct (expect_tag_some j g m l l1 Hg E) as [A B]. rewrite A. repeat split; try lia. congruence.
      - apply IH. intros t' j' Hin. apply He. right. auto. }
    specialize (T ((if is_rep f then [(tag_of f, i)] else [])
       ++ match nth_error sch (S i) with Some g => [(tag_of g, S i)] | None => [] end)).
    destruct (try_expect _ l) as [[j l1]|].
    - intros H. injection H as <- <-. destruct T as (A & B & C); auto.
      intros t j' Hin. apply in_app_or in Hin as [Hin|Hin].
      + destruct (is_rep f); [|contradiction]. destruct Hin as [Hin|[]]. injection Hin as <- <-. eauto.
      + destruct (nth_error sch (S i)) as [g|] eqn:E; [|contradiction].
        destruct Hin as [Hin|[]]. injection Hin as <- <-. eauto.
    - clear T. destruct (_ && _) eqn:E; intros H; injection H as <- <-.
      + apply andb_prop in E as [_ E]. destruct l; [|discriminate]. cbn [Pn]. rewrite P_nil. auto.
      + cbn [Pn]. auto.
  Qed.

  Lemma read_more_ok i f : nth_error sch i = Some f -> is_rep f = true -> forall k m l, shaped sch m ->
    exists q, read_more k (kind_of (f_type f)) (tag_of f) m i l = Ok q /\
    match q with
    | None => P m l = None
    | Some (m', l') => P m' l' = P m l /\ shaped sch m' /\ (length l' <= length l)%nat
    end.
  Proof.
    intros Hf Hrep. induction k as [|k IH]; intros m l Hm; cbn [read_more].
    - eexists. split; [reflexivity|]. cbv beta iota. auto.
    - destruct (expect_tag (tag_of f) l) as [l'|] eqn:E.
      + destruct (expect_tag_some i f m l l' Hf E) as [A B].
        unfold R in A. rewrite Hf in A.
        destruct (read_prim (kind_of (f_type f)) l') as [[v r]|] eqn:E2.
        * pose proof (store_ok sch m i f v Hm Hf) as S1. rewrite Hrep in S1. rewrite S1. cbn [obind].
          destruct (IH (put m i v) r (shaped_put _ _ _ _ Hm)) as (q & Hq & Q). exists q. split; auto.
          rewrite A. destruct q as [[m' l'']|]; auto.
          destruct Q as (Q1 & Q2 & Q3). repeat split; auto.
          destruct (read_prim_suffix _ _ _ _ E2) as (a & p & ->). rewrite app_length in B. lia.
        * eexists. split; [reflexivity|]. cbv beta iota. auto.
      + eexists. split; [reflexivity|]. cbv beta iota. auto.
  Qed.

  Lemma read_packed_ok i f : nth_error sch i = Some f -> is_rep f = true -> forall k m l, shaped sch m ->
    read_packed k (kind_of (f_type f)) m i l = Ok (option_map (put_all m i) (unpack k (kind_of (f_type f)) l)).
  Proof.
    intros Hf Hrep. induction k as [|k IH]; intros m l Hm; destruct l as [|a l]; cbn [read_packed unpack]; auto.
    destruct (read_prim (kind_of (f_type f)) (a :: l)) as [[v r]|]; auto.
    pose proof (store_ok sch m i f v Hm Hf) as S1. rewrite Hrep in S1. rewrite S1. cbn [obind].
    rewrite IH by (apply shaped_put; auto). destruct (unpack k (kind_of (f_type f)) r); reflexivity.
  Qed.

  Definition good (nx : next) (m : message) (l : list Z) (s : outcome (option (message * next * list Z))) : Prop :=
    exists q, s = Ok q /\
    match q with
    | None => Pn nx m l = None
    | Some (m', nx', l') => Pn nx' m' l' = Pn nx m l /\ shaped sch m' /\
        (nx' = GoDone \/ (length l' < length l)%nat) /\
        (match nx' with GoRead j => nth_error sch j <> None | _ => True end)
    end.

  Lemma read_case_ok i m l : nth_error sch i <> None -> shaped sch m ->
    good (GoRead i) m l (read_case room (protoc sch) i m l).
  Proof.
    intros Hi Hm. destruct (nth_error sch i) as [f|] eqn:Hf; [|congruence].
    unfold good, read_case, protoc. cbn [c_parse Pn]. unfold vget at 1. rewrite nth_error_mapi, Hf. cbn [obind Nat.add].
    unfold R. rewrite Hf. unfold gen_case at 1. cbn [pc_kind].
    destruct (read_prim (kind_of (f_type f)) l) as [[v r]|] eqn:E; [|eexists; split; reflexivity].
    assert (Lr : (length r < length l)%nat).
    { destruct (read_prim_suffix _ _ _ _ E) as (a & p & ->). rewrite app_length. simpl. lia. }
    unfold gen_case at 1. cbn [pc_rep].
    pose proof (store_ok sch m i f v Hm Hf) as S1. destruct (is_rep f) eqn:Hrep.
    - unfold gen_case at 1. cbn [pc_slot]. rewrite S1. cbn [obind].
      pose proof (shaped_put _ _ i v Hm) as Hm1.
      destruct (Forall2_nth _ _ _ _ _ Hm1 Hf) as (s & Hs & _).
      unfold gen_case at 1. cbn [pc_slot]. rewrite (nth_error_vget _ _ _ Hs). cbn [obind].
      unfold gen_case at 1 2. cbn [pc_slot pc_kind].
      destruct (read_more_ok i f Hf Hrep (room (slot_values s)) _ r Hm1) as (q & -> & Q). cbn [obind].
      destruct q as [[m2 r2]|].
      + destruct (after_case (gen_case i f (nth_error sch (S i))) r2) as [nx r3] eqn:Ea.
        destruct Q as (Q1 & Q2 & Q3).
        destruct (after_case_ok i f m2 r2 nx r3 Hf Ea) as (A1 & A2 & A3).
        eexists. split; [reflexivity|]. cbv beta iota. rewrite A1. repeat split; auto. right. lia.
      + eexists. split; [reflexivity|]. cbv beta iota. auto.
    - unfold gen_case at 1. cbn [pc_slot]. rewrite S1. cbn [obind].
      destruct (after_case (gen_case i f (nth_error sch (S i))) r) as [nx r3] eqn:Ea.
      destruct (after_case_ok i f (put m i v) r nx r3 Hf Ea) as (A1 & A2 & A3).
      eexists. split; [reflexivity|]. cbv beta iota. rewrite A1. repeat split; auto; [apply shaped_put; auto|right; lia].
  Qed.

  Lemma find_case_some n ps : forall i j p, find_case i n ps = Some (j, p) ->
    (i <= j)%nat /\ nth_error ps (j - i) = Some p /\ pc_num p = n.
  Proof.
    induction ps as [|g t IH]; intros i j p H; cbn in *; [discriminate|].
    destruct (Z.eqb_spec (pc_num g) n).
    - injection H as <- <-. rewrite Nat.sub_diag. auto.
    - apply IH in H as (A & B & C). split; [lia|]. split; auto.
      replace (j - i)%nat with (S (j - S i)) by lia. exact B.
  Qed.
  Lemma find_case_none n ps : forall i, find_case i n ps = None -> forall p, In p ps -> pc_num p <> n.
  Proof.
    induction ps as [|g t IH]; intros i H f Hf; cbn in *; [contradiction|].
    destruct (Z.eqb_spec (pc_num g) n); [discriminate|]. destruct Hf as [<-|Hf]; eauto.
  Qed.

  Lemma uninterpreted_ok t r m l : read_tag l = TTag t r ->
    (tag_wire_type t =? 2) && packs (tag_number t) = false ->
    (forall u, number u = tag_number t -> wire_type_of u = tag_wire_type t -> absorb sch m u = Some (keep m u)) ->
    shaped sch m -> good GoLoop m l (uninterpreted d t m r).
  Proof.
    intros Ht Hc Hk Hm. unfold good, uninterpreted, Pn, P. rewrite clipped_eq, Ht. unfold skip_clip. rewrite Hc.
    destruct (tag_wire_type t =? 4); [eexists; split; reflexivity|].
    destruct (skip_field d t r) as [[u r']|] eqn:E; [|eexists; split; reflexivity].
    eexists. split; [reflexivity|]. cbv beta iota. repeat split.
    - destruct (clipped packs d r') as [rs|]; auto. cbn [absorb_all].
      destruct (skip_field_kind _ _ _ _ _ E) as [N1 N2]. rewrite (Hk u N1 N2). reflexivity.
    - exact Hm.
    - right. eapply read_skip_length; eauto.
  Qed.

  Lemma read_top_ok m l : shaped sch m -> good GoLoop m l (read_top room d (protoc sch) m l).
  Proof.
    intros Hm. unfold read_top. destruct (read_tag l) as [| |t r] eqn:Ht.
    - eexists. split; [reflexivity|]. cbv beta iota. cbn [Pn]. unfold P. rewrite clipped_eq, Ht. repeat split; auto.
    - eexists. split; [reflexivity|]. cbv beta iota. cbn [Pn]. unfold P. rewrite clipped_eq, Ht. auto.
    - destruct (find_case 0 (tag_number t) (c_parse (protoc sch))) as [[i p]|] eqn:Ef.
      + apply find_case_some in Ef as (_ & Hp & Hn). rewrite Nat.sub_0_r in Hp.
        unfold protoc in Hp. cbn [c_parse] in Hp. rewrite nth_error_mapi in Hp. cbn [Nat.add] in Hp.
        destruct (nth_error sch i) as [f|] eqn:Hf; [|discriminate].
        assert (Hp' : p = gen_case i f (nth_error sch (S i))) by congruence. clear Hp. subst p.
        unfold gen_case in Hn. cbn [pc_num] in Hn.
        pose proof (proj1 Hwf) as Hnd. pose proof (find_field_nth sch Hnd 0 i f Hf) as Hff. cbn [Nat.add] in Hff.
        assert (Lr : (length r < length l)%nat).
        { destruct (read_tag_suffix _ _ _ Ht) as ((a & q & ->) & _). rewrite app_length. simpl. lia. }
        unfold gen_case at 1. cbn [pc_wt].
        destruct (Z.eqb_spec (tag_wire_type t) (wt_of (f_type f))) as [W|W].
        * destruct (read_case_ok i m r ltac:(congruence) Hm) as (q & -> & Q).
          pose proof (P_read i f t r m l Hf Ht (eq_sym Hn) W) as E.
          eexists. split; [reflexivity|]. cbv beta iota. cbn [Pn] in *. rewrite E.
          destruct q as [[[m' nx'] l']|]; auto. destruct Q as (Q1 & Q2 & Q3 & Q4). repeat split; auto.
          destruct Q3; [auto|right; lia].
        * assert (U : (is_rep f = false \/ tag_wire_type t <> 2) -> good GoLoop m l (uninterpreted d t m r)).
          { intros Hu. apply uninterpreted_ok; auto.
            { unfold packs. rewrite <- Hn, Hff. destruct Hu as [->|Hu]; [apply Bool.andb_false_r|].
              apply Z.eqb_neq in Hu. rewrite Hu. reflexivity. }
            intros u N1 N2.
            unfold absorb. rewrite N1, <- Hn, Hff.
            destruct u; cbn [wire_type_of] in N2; auto.
            - destruct (f_type f) eqn:Et; auto; cbn in W; congruence.
            - destruct Hu as [->|Hu]; auto. congruence.
            - destruct (f_type f) eqn:Et; auto; cbn in W; congruence. }
          unfold gen_case at 1. cbn [pc_rep]. destruct (is_rep f) eqn:Hrep; [|apply U; auto].
          destruct (Z.eqb_spec (tag_wire_type t) 2) as [W2|W2]; [|apply U; auto].
          unfold read_case_packed.
          unfold good. cbn [Pn]. unfold P. rewrite clipped_eq, Ht. unfold skip_clip. rewrite W2. cbn [Z.eqb Pos.eqb].
          assert (Pk : packs (tag_number t) = true) by (unfold packs; rewrite <- Hn, Hff; exact Hrep).
          rewrite Pk. cbn [andb].
          destruct (read_varint32 r) as [[len r1]|] eqn:E; [|eexists; split; reflexivity].
          cbv zeta. set (k := push_limit len r1).
          unfold gen_case at 1. cbn [pc_slot].
          rewrite (read_packed_ok i f Hf Hrep) by auto. cbn [obind].
          assert (Lf : length (firstn k r1) = k).
          { rewrite firstn_length. unfold k, push_limit. destruct (len <? 2 ^ 31); lia. }
          assert (Ab : absorb sch m (RLen (tag_number t) (firstn k r1)) =
            option_map (put_all m i) (unpack k (kind_of (f_type f)) (firstn k r1))).
          { unfold absorb. cbn [number]. rewrite <- Hn, Hff, Hrep, Lf. destruct (unpack _ _ _); reflexivity. }
          destruct (unpack k (kind_of (f_type f)) (firstn k r1)) as [vs|] eqn:Eu;
            cbn [option_map] in *.
          -- destruct (after_case (gen_case i f (nth_error sch (S i))) (skipn k r1)) as [nx r3] eqn:Ea.
             destruct (after_case_ok i f (put_all m i vs) _ nx r3 Hf Ea) as (A1 & A2 & A3).
             eexists. split; [reflexivity|]. cbv beta iota. rewrite A1. repeat split; auto.
             ++ unfold P. destruct (clipped packs d (skipn k r1)) as [rs|]; auto. cbn [absorb_all].
                rewrite Ab. reflexivity.
             ++ apply shaped_put_all; auto.
             ++ right. rewrite skipn_length in A2.
                destruct (read_varint32_suffix _ _ _ E) as (a & q & ->). rewrite app_length in Lr. lia.
          -- eexists. split; [reflexivity|]. cbv beta iota. destruct (clipped packs d (skipn k r1)) as [rs|]; auto.
             cbn [absorb_all]. rewrite Ab. reflexivity.
      + assert (Nf : find_field 0 (tag_number t) sch = None).
        { destruct (find_field 0 (tag_number t) sch) as [[j f]|] eqn:E; auto.
          apply find_field_some in E as (_ & E1 & E2). rewrite Nat.sub_0_r in E1. exfalso.
          eapply (find_case_none _ _ _ Ef (gen_case j f (nth_error sch (S j)))).
          * unfold protoc. cbn [c_parse]. eapply nth_error_In with j. rewrite nth_error_mapi, E1. reflexivity.
          * unfold gen_case. cbn [pc_num]. congruence. }
        apply uninterpreted_ok; auto.
        { unfold packs. rewrite Nf. apply Bool.andb_false_r. }
        intros u N1 N2. unfold absorb. rewrite N1, Nf. reflexivity.
  Qed.

  Lemma merge_ok f : forall nx m l, shaped sch m -> (length l < f)%nat ->
    (match nx with GoRead j => nth_error sch j <> None | _ => True end) ->
    merge_from_stream room d (protoc sch) f nx m l = Ok (Pn nx m l).
  Proof.
    induction f as [|f IH]; intros nx m l Hm Hf Hj; [lia|].
    assert (S1 : forall s, good nx m l s -> (let* r := s in
            match r with
            | None => Ok None
            | Some (m', nx', l') => merge_from_stream room d (protoc sch) f nx' m' l'
            end) = Ok (Pn nx m l)).
    { intros s (q & -> & Q). cbn [obind]. destruct q as [[[m' nx'] l']|]; [|congruence].
      destruct Q as (Q1 & Q2 & Q3 & Q4). rewrite <- Q1. destruct Q3 as [->|Q3].
      - destruct f; reflexivity.
      - apply IH; auto. lia. }
    cbn [merge_from_stream]. destruct nx as [|i|].
    - apply S1, read_top_ok, Hm.
    - apply S1, read_case_ok; auto.
    - reflexivity.
  Qed.

  Theorem parse_partial_ok l : parse_partial room d (protoc sch) l = Ok (P (empty_message sch) l).
  Proof.
    unfold parse_partial. rewrite ctor_empty. apply (merge_ok _ GoLoop); auto. apply shaped_empty.
  Qed.
End Parser.
