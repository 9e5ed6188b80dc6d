(** Clustering: the object, what it shows, reading, writing, merging. *)
From Coq Require Import ZArith Lia List.
Import ListNotations.
From Verif.model Require Import Base Wire SchemaCode Schema SchemaClustering.
From Verif.spec Require Import WireSpec ClusteringMessageSpec ClusteringUse.
From Verif.proof Require Import WireProof SchemaGen SchemaWrite SchemaMerge.
Local Open Scope Z_scope.

Notation pys := pitman_yor_schema.
Notation les := low_entropy_schema.

Lemma py_code : Clustering_PitmanYor_code = protoc pys.
Proof. reflexivity. Qed.
Lemma le_code : Clustering_LowEntropy_code = protoc les.
Proof. reflexivity. Qed.
Lemma py_wf : wf pys.
Proof.
  split; [|split]; cbn [pitman_yor_schema map f_number length required];
    [repeat (constructor; [cbn [In]; lia|]); constructor
    |repeat (constructor; [cbn [f_number required]; lia|]); constructor|lia].
Qed.
Lemma le_wf : wf les.
Proof.
  split; [|split]; cbn [low_entropy_schema map f_number length required];
    [repeat (constructor; [cbn [In]; lia|]); constructor
    |repeat (constructor; [cbn [f_number required]; lia|]); constructor|lia].
Qed.
Lemma py_empty : ctor Clustering_PitmanYor_code = empty_message pys.
Proof. reflexivity. Qed.
Lemma le_empty : ctor Clustering_LowEntropy_code = empty_message les.
Proof. reflexivity. Qed.

(** * The object *)

Definition tidy (o : clustering_object) : Prop :=
  0 <= cl_bits o < 4 /\ shaped pys (cl_pitman_yor o) /\ shaped les (cl_low_entropy o)
  /\ (cl_has_py o = false -> cl_pitman_yor o = empty_message pys)
  /\ (cl_has_le o = false -> cl_low_entropy o = empty_message les).

Lemma four b : 0 <= b < 4 -> b = 0 \/ b = 1 \/ b = 2 \/ b = 3.
Proof. lia. Qed.

Lemma tidy_new : tidy cl_ctor.
Proof. unfold tidy. split; [cbn; lia|]. repeat split; try (apply (shaped_empty pys)); try (apply (shaped_empty les)). Qed.

Lemma py_or_empty o : tidy o -> or_empty pys (pitman_yor (shows o)) = cl_pitman_yor o.
Proof. intros (_ & _ & _ & H & _). unfold shows, or_empty. cbn [pitman_yor]. destruct (cl_has_py o); auto. symmetry. auto. Qed.
Lemma le_or_empty o : tidy o -> or_empty les (low_entropy (shows o)) = cl_low_entropy o.
Proof. intros (_ & _ & _ & _ & H). unfold shows, or_empty. cbn [low_entropy]. destruct (cl_has_le o); auto. symmetry. auto. Qed.

Lemma mutable_py_same o : cl_pitman_yor (cl_mutable_py o) = cl_pitman_yor o.
Proof. unfold cl_pitman_yor, cl_mutable_py. cbn [cl_py]. destruct (cl_py o); reflexivity. Qed.
Lemma mutable_le_same o : cl_low_entropy (cl_mutable_le o) = cl_low_entropy o.
Proof. unfold cl_low_entropy, cl_mutable_le. cbn [cl_le]. destruct (cl_le o); reflexivity. Qed.

Lemma set_py_ok o m : tidy o -> shaped pys m -> tidy (cl_set_py (cl_mutable_py o) m)
  /\ shows (cl_set_py (cl_mutable_py o) m) = Clustering (Some m) (low_entropy (shows o)) (others (shows o)).
Proof.
  intros (B & _ & L & _ & HL) Hm. destruct o as [b py le u].
  unfold tidy, shows, cl_has_py, cl_has_le, cl_pitman_yor, cl_low_entropy, cl_set_py, cl_mutable_py in *.
  cbn [cl_bits cl_py cl_le cl_unknown pitman_yor low_entropy others] in *.
  destruct (four _ B) as [E|[E|[E|E]]]; subst b; cbn [Z.lor Z.land Pos.lor Pos.land Pos.Nsucc_double Pos.Ndouble Z.of_N Z.eqb Pos.eqb negb] in *;
    repeat split; auto; try lia; discriminate.
Qed.
Lemma set_le_ok o m : tidy o -> shaped les m -> tidy (cl_set_le (cl_mutable_le o) m)
  /\ shows (cl_set_le (cl_mutable_le o) m) = Clustering (pitman_yor (shows o)) (Some m) (others (shows o)).
Proof.
  intros (B & P & _ & HP & _) Hm. destruct o as [b py le u].
  unfold tidy, shows, cl_has_py, cl_has_le, cl_pitman_yor, cl_low_entropy, cl_set_le, cl_mutable_le in *.
  cbn [cl_bits cl_py cl_le cl_unknown pitman_yor low_entropy others] in *.
  destruct (four _ B) as [E|[E|[E|E]]]; subst b; cbn [Z.lor Z.land Pos.lor Pos.land Pos.Nsucc_double Pos.Ndouble Z.of_N Z.eqb Pos.eqb negb] in *;
    repeat split; auto; try lia; discriminate.
Qed.

Lemma clear_py_empty m : shaped pys m -> clear Clustering_PitmanYor_code m = empty_message pys.
Proof. rewrite py_code. apply clear_ok. Qed.
Lemma clear_le_empty m : shaped les m -> clear Clustering_LowEntropy_code m = empty_message les.
Proof. rewrite le_code. apply clear_ok. Qed.

Ltac open_bits B := let E := fresh in destruct (four _ B) as [E|[E|[E|E]]]; rewrite E in *;
  cbn [Z.lor Z.land Z.ldiff Pos.lor Pos.land Pos.ldiff Pos.Nsucc_double Pos.Ndouble Z.of_N N.succ_double N.double Z.eqb Pos.eqb negb andb] in *.

Lemma clear_tidy o : tidy o -> tidy (cl_clear o) /\ shows (cl_clear o) = Clustering None None [].
Proof.
  intros (B & P & L & HP & HL). destruct o as [b py le u]. split; [|reflexivity].
  unfold tidy, cl_clear, cl_has_any, cl_has_py, cl_has_le, cl_pitman_yor, cl_low_entropy in *.
  cbn [cl_bits cl_py cl_le cl_unknown] in *.
  assert (P' : match option_map (clear Clustering_PitmanYor_code) py with Some m => m | None => ctor Clustering_PitmanYor_code end
               = empty_message pys).
  { destruct py; cbn [option_map]; [apply clear_py_empty; auto|apply py_empty]. }
  assert (L' : match option_map (clear Clustering_LowEntropy_code) le with Some m => m | None => ctor Clustering_LowEntropy_code end
               = empty_message les).
  { destruct le; cbn [option_map]; [apply clear_le_empty; auto|apply le_empty]. }
  assert (N : 0 <= 0 < 4) by lia.
  assert (Q : tidy (ClObject 0 (if negb (Z.land b 255 =? 0) && negb (Z.land b 1 =? 0)
                                then option_map (clear Clustering_PitmanYor_code) py else py)
                               (if negb (Z.land b 255 =? 0) && negb (Z.land b 2 =? 0)
                                then option_map (clear Clustering_LowEntropy_code) le else le) [])); [|exact Q].
  unfold tidy, cl_has_py, cl_has_le, cl_pitman_yor, cl_low_entropy. cbn [cl_bits cl_py cl_le].
  split; auto.
  open_bits B; rewrite ?P', ?L', ?HP, ?HL by reflexivity; repeat split;
    auto using (shaped_empty pys), (shaped_empty les).
Qed.

Lemma clear_py_tidy o : tidy o -> tidy (cl_clear_py o)
  /\ shows (cl_clear_py o) = Clustering None (low_entropy (shows o)) (others (shows o)).
Proof.
  intros (B & P & L & HP & HL). destruct o as [b py le u].
  unfold tidy, shows, cl_clear_py, cl_has_py, cl_has_le, cl_pitman_yor, cl_low_entropy in *.
  cbn [cl_bits cl_py cl_le cl_unknown pitman_yor low_entropy others] in *.
  assert (P' : match option_map (clear Clustering_PitmanYor_code) py with Some m => m | None => ctor Clustering_PitmanYor_code end
               = empty_message pys).
  { destruct py; cbn [option_map]; [apply clear_py_empty; auto|apply py_empty]. }
  open_bits B; rewrite ?P'; repeat split; auto using (shaped_empty pys); lia.
Qed.
Lemma clear_le_tidy o : tidy o -> tidy (cl_clear_le o)
  /\ shows (cl_clear_le o) = Clustering (pitman_yor (shows o)) None (others (shows o)).
Proof.
  intros (B & P & L & HP & HL). destruct o as [b py le u].
  unfold tidy, shows, cl_clear_le, cl_has_py, cl_has_le, cl_pitman_yor, cl_low_entropy in *.
  cbn [cl_bits cl_py cl_le cl_unknown pitman_yor low_entropy others] in *.
  assert (L' : match option_map (clear Clustering_LowEntropy_code) le with Some m => m | None => ctor Clustering_LowEntropy_code end
               = empty_message les).
  { destruct le; cbn [option_map]; [apply clear_le_empty; auto|apply le_empty]. }
  open_bits B; rewrite ?L'; repeat split; auto using (shaped_empty les); lia.
Qed.
Lemma release_py_tidy o : tidy o -> tidy (cl_release_py o)
  /\ shows (cl_release_py o) = Clustering None (low_entropy (shows o)) (others (shows o)).
Proof.
  intros (B & P & L & HP & HL). destruct o as [b py le u].
  unfold tidy, shows, cl_release_py, cl_has_py, cl_has_le, cl_pitman_yor, cl_low_entropy in *.
  cbn [cl_bits cl_py cl_le cl_unknown pitman_yor low_entropy others] in *.
  open_bits B; rewrite ?py_empty; repeat split; auto using (shaped_empty pys); lia.
Qed.
Lemma release_le_tidy o : tidy o -> tidy (cl_release_le o)
  /\ shows (cl_release_le o) = Clustering (pitman_yor (shows o)) None (others (shows o)).
Proof.
  intros (B & P & L & HP & HL). destruct o as [b py le u].
  unfold tidy, shows, cl_release_le, cl_has_py, cl_has_le, cl_pitman_yor, cl_low_entropy in *.
  cbn [cl_bits cl_py cl_le cl_unknown pitman_yor low_entropy others] in *.
  open_bits B; rewrite ?le_empty; repeat split; auto using (shaped_empty les); lia.
Qed.

(** * Reading *)

Definition cclip (n : Z) : bool := (n =? 1) || (n =? 2).

Definition cabs (d : nat) (v : clustering) (r : record) : option clustering :=
  let other := Some (Clustering (pitman_yor v) (low_entropy v) (others v ++ [r])) in
  match r with
  | RLen n b =>
      if n =? 1 then
        match d with
        | O => None
        | S d' => match P pys d' (or_empty pys (pitman_yor v)) b with
                  | Some m => Some (Clustering (Some m) (low_entropy v) (others v))
                  | None => None
                  end
        end
      else if n =? 2 then
        match d with
        | O => None
        | S d' => match P les d' (or_empty les (low_entropy v)) b with
                  | Some m => Some (Clustering (pitman_yor v) (Some m) (others v))
                  | None => None
                  end
        end
      else other
  | _ => other
  end.
Fixpoint cabs_all (d : nat) (v : clustering) (rs : list record) : option clustering :=
  match rs with [] => Some v | r :: t => match cabs d v r with Some v' => cabs_all d v' t | None => None end end.
Lemma cabs_all_app d rs : forall v rs', cabs_all d v (rs ++ rs') =
  match cabs_all d v rs with Some v' => cabs_all d v' rs' | None => None end.
Proof. induction rs as [|r rs IH]; intros v rs'; cbn; auto. destruct (cabs d v r); auto. Qed.

Definition Q (d : nat) (v : clustering) (l : list Z) : option clustering :=
  match clipped cclip d l with Some rs => cabs_all d v rs | None => None end.

(** After the tag of low_entropy. *)
Definition Q2 (d : nat) (v : clustering) (l : list Z) : option clustering :=
  match read_varint32 l with
  | None => None
  | Some (len, r) => match cabs d v (RLen 2 (firstn (push_limit len r) r)) with
                     | Some v' => Q d v' (skipn (push_limit len r) r)
                     | None => None
                     end
  end.
Definition Qn (d : nat) (nx : next) (v : clustering) (l : list Z) : option clustering :=
  match nx with GoLoop => Q d v l | GoRead _ => Q2 d v l | GoDone => Some v end.

Lemma push_limit_le len r : (push_limit len r <= length r)%nat.
Proof. unfold push_limit. destruct (len <? 2 ^ 31); lia. Qed.

Lemma read_message_ok room d sch m l : wf sch -> shaped sch m ->
  read_message room d (protoc sch) m l =
  Ok (match read_varint32 l with
      | None => None
      | Some (len, r) => match d with
                         | O => None
                         | S d' => match P sch d' m (firstn (push_limit len r) r) with
                                   | Some m' => Some (m', skipn (push_limit len r) r)
                                   | None => None
                                   end
                         end
      end).
Proof.
  intros W Hm. unfold read_message. destruct (read_varint32 l) as [[len r]|]; [|reflexivity].
  destruct d as [|d]; [reflexivity|]. cbv zeta. set (k := push_limit len r).
  rewrite (merge_ok sch W room d (S k) GoLoop m (firstn k r)); [reflexivity|auto| |exact I].
  rewrite firstn_length. lia.
Qed.

Lemma P_shaped sch d m l m' : shaped sch m -> P sch d m l = Some m' -> shaped sch m'.
Proof.
  unfold P. destruct (clipped (packs sch) d l) as [rs|]; [|discriminate]. revert m.
  induction rs as [|r rs IH]; intros m Hm H; cbn [absorb_all] in H; [congruence|].
  destruct (absorb sch m r) as [m1|] eqn:E; [|discriminate]. apply (IH m1); auto. eapply shaped_absorb; eauto.
Qed.

Definition cgood (d : nat) (nx : next) (o : clustering_object) (l : list Z)
  (s : outcome (option (clustering_object * next * list Z))) : Prop :=
  exists q, s = Ok q /\
  match q with
  | None => Qn d nx (shows o) l = None
  | Some (o', nx', l') => Qn d nx' (shows o') l' = Qn d nx (shows o) l /\ tidy o' /\
      (nx' = GoDone \/ (length l' < length l)%nat)
  end.

Lemma cskip t d r n : tag_number t = n -> tag_wire_type t = 2 -> cclip n = true ->
  skip_clip cclip d t r = match read_varint32 r with
                          | Some (len, r1) => Some (RLen n (firstn (push_limit len r1) r1), skipn (push_limit len r1) r1)
                          | None => None
                          end.
Proof. intros N W C. unfold skip_clip. rewrite N, W, C. reflexivity. Qed.

Lemma Q_tag2 d v t r l : read_tag l = TTag t r -> tag_number t = 2 -> tag_wire_type t = 2 -> Q d v l = Q2 d v r.
Proof.
  intros Ht N W. unfold Q at 1, Q2. rewrite clipped_eq, Ht, W. cbn [Z.eqb Pos.eqb]. rewrite (cskip t d r 2 N W eq_refl).
  destruct (read_varint32 r) as [[len r1]|]; [|reflexivity]. unfold Q.
  destruct (clipped cclip d (skipn (push_limit len r1) r1)) as [rs|]; cbn [cabs_all]; [reflexivity|].
  destruct (cabs d v _); reflexivity.
Qed.

Lemma expect_18 l r : expect_tag 18 l = Some r -> read_tag l = TTag 18 r /\ l = 18 :: r.
Proof.
  unfold expect_tag. intros H. apply take_prefix_spec in H. change (write_varint 18) with [18] in H. subst l.
  split; reflexivity.
Qed.

Section Read.
  Context (room : list Z -> nat) (d : nat).

  Lemma cl_read_le_ok i o l : tidy o -> cgood d (GoRead i) o l (cl_read_le room d o l).
  Proof.
    intros T. unfold cgood, cl_read_le. cbv zeta. rewrite mutable_le_same.
    pose proof T as (_ & _ & L & _ & _).
    rewrite le_code, (read_message_ok room d les _ l le_wf L). cbn [obind Qn]. unfold Q2.
    destruct (read_varint32 l) as [[len r]|] eqn:E; [|eexists; split; reflexivity].
    cbn [cabs Z.eqb Pos.eqb]. rewrite (le_or_empty o T).
    destruct d as [|d']; [eexists; split; reflexivity|].
    destruct (P les d' (cl_low_entropy o) (firstn (push_limit len r) r)) as [m|] eqn:Em; [|eexists; split; reflexivity].
    destruct (set_le_ok o m T (P_shaped _ _ _ _ _ L Em)) as [T' S'].
    assert (Lr : (length (skipn (push_limit len r) r) < length l)%nat).
    { destruct (read_varint32_suffix _ _ _ E) as (a & p & ->). rewrite app_length, skipn_length. simpl. lia. }
    destruct (skipn (push_limit len r) r) as [|x y] eqn:Es.
    - eexists. split; [reflexivity|]. cbv beta iota. rewrite S'. cbn [Qn]. split; [reflexivity|]. split; auto.
    - eexists. split; [reflexivity|]. cbv beta iota. rewrite S'. cbn [Qn]. split; [reflexivity|]. split; auto.
  Qed.

  Lemma cl_read_py_ok o t r l : tidy o -> read_tag l = TTag t r -> tag_number t = 1 -> tag_wire_type t = 2 ->
    (length r < length l)%nat -> cgood d GoLoop o l (cl_read_py room d o r).
  Proof.
    intros T Ht N W Lr. unfold cgood, cl_read_py. cbv zeta. rewrite mutable_py_same.
    pose proof T as (_ & Py & _ & _ & _).
    rewrite py_code, (read_message_ok room d pys _ r py_wf Py). cbn [obind Qn]. unfold Q.
    rewrite clipped_eq, Ht, W. cbn [Z.eqb Pos.eqb]. rewrite (cskip t d r 1 N W eq_refl).
    destruct (read_varint32 r) as [[len r1]|] eqn:E; [|eexists; split; reflexivity].
    set (k := push_limit len r1).
    assert (A : cabs d (shows o) (RLen 1 (firstn k r1)) =
      match d with O => None | S d' => match P pys d' (cl_pitman_yor o) (firstn k r1) with
        | Some m => Some (Clustering (Some m) (low_entropy (shows o)) (others (shows o))) | None => None end end).
    { cbn [cabs Z.eqb Pos.eqb]. rewrite (py_or_empty o T). reflexivity. }
    assert (B : forall z, cabs d (shows o) (RLen 1 (firstn k r1)) = z ->
      match match clipped cclip d (skipn k r1) with Some us => Some (RLen 1 (firstn k r1) :: us) | None => None end with
      | Some rs => cabs_all d (shows o) rs | None => None end
      = match z with Some v' => Q d v' (skipn k r1) | None => None end).
    { intros z <-. unfold Q. destruct (clipped cclip d (skipn k r1)); [reflexivity|]. destruct (cabs d (shows o) _); reflexivity. }
    rewrite (B _ A). clear B A. destruct d as [|d']; [eexists; split; reflexivity|].
    destruct (P pys d' (cl_pitman_yor o) (firstn k r1)) as [m|] eqn:Em; [|eexists; split; reflexivity].
    destruct (set_py_ok o m T (P_shaped _ _ _ _ _ Py Em)) as [T' S'].
    assert (Ls : (length (skipn k r1) < length l)%nat).
    { destruct (read_varint32_suffix _ _ _ E) as (a & p & Er). rewrite Er, app_length in Lr. rewrite skipn_length. simpl in Lr. lia. }
    destruct (expect_tag 18 (skipn k r1)) as [r2|] eqn:Ex.
    - destruct (expect_18 _ _ Ex) as [Et El].
      eexists. split; [reflexivity|]. cbv beta iota. rewrite S'. cbn [Qn]. split; [|split; [exact T'|]].
      + symmetry. apply (Q_tag2 _ _ 18 r2); auto.
      + right. rewrite El in Ls. simpl in Ls. lia.
    - eexists. split; [reflexivity|]. cbv beta iota. rewrite S'. cbn [Qn]. split; [reflexivity|]. split; auto.
  Qed.

  Lemma cl_uninterpreted_ok o t r l : tidy o -> read_tag l = TTag t r ->
    ~ (tag_wire_type t = 2 /\ cclip (tag_number t) = true) -> cgood d GoLoop o l (cl_uninterpreted d t o r).
  Proof.
    intros T Ht Hc. unfold cgood, cl_uninterpreted. cbn [Qn]. unfold Q. rewrite clipped_eq, Ht.
    destruct (tag_wire_type t =? 4) eqn:W4; [eexists; split; reflexivity|].
    assert (S1 : skip_clip cclip d t r = skip_field d t r).
    { unfold skip_clip. destruct (Z.eqb_spec (tag_wire_type t) 2) as [W|]; [|reflexivity].
      destruct (cclip (tag_number t)) eqn:C; [|reflexivity]. destruct Hc. auto. }
    rewrite S1. destruct (skip_field d t r) as [[u r']|] eqn:E; [|eexists; split; reflexivity].
    eexists. split; [reflexivity|]. cbv beta iota. cbn [Qn]. split.
    - assert (A : cabs d (shows o) u = Some (shows (ClObject (cl_bits o) (cl_py o) (cl_le o) (cl_unknown o ++ [u])))).
      { destruct (skip_field_kind _ _ _ _ _ E) as [N1 N2]. unfold cabs. destruct u as [x y|x y|n b|x y|x y]; try reflexivity.
        cbn [number wire_type_of] in N1, N2.
        destruct (Z.eqb_spec n 1) as [En|En]; [destruct Hc; split; [congruence|]; rewrite <- N1, En; reflexivity|].
        destruct (Z.eqb_spec n 2) as [En2|En2]; [destruct Hc; split; [congruence|]; rewrite <- N1, En2; reflexivity|].
        reflexivity. }
      unfold Q. destruct (clipped cclip d r') as [us|]; [|reflexivity]. cbn [cabs_all]. rewrite A. reflexivity.
    - split; [exact T|]. right. eapply read_skip_length; eauto.
  Qed.

  Lemma cl_read_top_ok o l : tidy o -> cgood d GoLoop o l (cl_read_top room d o l).
  Proof.
    intros T. unfold cl_read_top. destruct (read_tag l) as [| |t r] eqn:Ht.
    - eexists. split; [reflexivity|]. cbv beta iota. cbn [Qn]. unfold Q. rewrite clipped_eq, Ht. split; [reflexivity|]. split; auto.
    - eexists. split; [reflexivity|]. cbv beta iota. cbn [Qn]. unfold Q. rewrite clipped_eq, Ht. auto.
    - assert (Lr : (length r < length l)%nat).
      { destruct (read_tag_suffix _ _ _ Ht) as ((a & q & ->) & _). rewrite app_length. simpl. lia. }
      destruct (Z.eqb_spec (tag_number t) 1) as [N|N].
      + destruct (Z.eqb_spec (tag_wire_type t) 2) as [W|W].
        * eapply cl_read_py_ok; eauto.
        * apply cl_uninterpreted_ok; auto. tauto.
      + destruct (Z.eqb_spec (tag_number t) 2) as [N2|N2].
        * destruct (Z.eqb_spec (tag_wire_type t) 2) as [W|W].
          -- destruct (cl_read_le_ok 1 o r T) as (q & -> & G). eexists. split; [reflexivity|].
             cbn [Qn] in *. rewrite (Q_tag2 d (shows o) t r l Ht N2 W). destruct q as [[[o' nx'] l']|]; auto.
             destruct G as (G1 & G2 & G3). split; [exact G1|]. split; [exact G2|]. destruct G3; [auto|right; lia].
          -- apply cl_uninterpreted_ok; auto. tauto.
        * apply cl_uninterpreted_ok; auto. intros [_ C]. unfold cclip in C.
          apply Bool.orb_prop in C as [C|C]; apply Z.eqb_eq in C; congruence.
  Qed.

  Lemma cl_merge_ok f : forall nx o l, tidy o -> (length l < f)%nat ->
    exists q, cl_merge_from_stream room d f nx o l = Ok q /\ option_map shows q = Qn d nx (shows o) l
              /\ forall o', q = Some o' -> tidy o'.
  Proof.
    induction f as [|f IH]; intros nx o l T Hf; [lia|].
    assert (S1 : forall s, cgood d nx o l s -> exists q, (let* r := s in
            match r with
            | None => Ok None
            | Some (o', nx', l') => cl_merge_from_stream room d f nx' o' l'
            end) = Ok q /\ option_map shows q = Qn d nx (shows o) l /\ forall o', q = Some o' -> tidy o').
    { intros s (q & -> & G). cbn [obind]. destruct q as [[[o' nx'] l']|].
      - destruct G as (G1 & G2 & G3). destruct G3 as [->|G3].
        + exists (Some o'). split; [destruct f; reflexivity|]. rewrite <- G1. split; [reflexivity|]. intros o'' H. congruence.
        + rewrite <- G1. apply IH; auto. lia.
      - exists None. rewrite G. split; [reflexivity|]. split; [reflexivity|]. intros o' H. discriminate H. }
    cbn [cl_merge_from_stream]. destruct nx as [|i|].
    - apply S1, cl_read_top_ok, T.
    - apply S1, cl_read_le_ok; auto.
    - exists (Some o). split; [reflexivity|]. split; [reflexivity|]. intros o' H. congruence.
  Qed.

  Theorem cl_parse_partial_ok o l : tidy o ->
    exists q, cl_parse_partial room d o l = Ok q /\ option_map shows q = Q d (Clustering None None []) l
              /\ forall o', q = Some o' -> tidy o'.
  Proof.
    intros T. destruct (clear_tidy o T) as [T' S']. unfold cl_parse_partial.
    destruct (cl_merge_ok (S (length l)) GoLoop (cl_clear o) l T' ltac:(lia)) as (q & A & B & C).
    exists q. split; [exact A|]. split; [|exact C]. rewrite B, S'. reflexivity.
  Qed.
End Read.

(** * Writing *)

Definition recs_of (v : clustering) : list record :=
  match pitman_yor v with Some m => [RLen 1 (write_records (message_records pys m))] | None => [] end
  ++ match low_entropy v with Some m => [RLen 2 (write_records (message_records les m))] | None => [] end
  ++ others v.

Lemma message_records_bytes d sch m : wf sch -> message_of d sch m ->
  Forall is_byte (write_records (message_records sch m)).
Proof.
  intros W H. pose proof (records_fit d sch m W H) as F. unfold write_records.
  induction F as [|r rs Hr F IH]; cbn [map concat]; [constructor|]. apply Forall_app. split; auto.
  eapply write_record_bytes; eauto.
Qed.

Lemma message_record_unique d sch n v rs : wf sch -> (forall m, v = Some m -> message_of d sch m) ->
  message_record n sch v rs ->
  rs = match v with Some m => [RLen n (write_records (message_records sch m))] | None => [] end.
Proof.
  intros W Hm H. destruct v as [m|]; cbn [message_record] in H; [|exact H].
  destruct H as (b & Hb & ->). rewrite (records_bytes_write d _ _ Hb) by (apply records_fit; auto). reflexivity.
Qed.

Lemma clustering_records_unique d v rs : clustering_of d v -> clustering_records v rs -> rs = recs_of v.
Proof.
  intros (H1 & H2 & _) (a & b & Ha & Hb & ->). unfold recs_of.
  rewrite (message_record_unique d pys 1 _ _ py_wf H1 Ha), (message_record_unique d les 2 _ _ le_wf H2 Hb). reflexivity.
Qed.

Lemma clustering_records_exist d v : clustering_of d v -> clustering_records v (recs_of v).
Proof.
  intros (H1 & H2 & _).
  exists (match pitman_yor v with Some m => [RLen 1 (write_records (message_records pys m))] | None => [] end),
         (match low_entropy v with Some m => [RLen 2 (write_records (message_records les m))] | None => [] end).
  split; [|split; [|reflexivity]].
  - destruct (pitman_yor v) as [m|]; cbn [message_record]; [|reflexivity]. eexists. split; [|reflexivity].
    eapply write_records_ok. apply records_fit; [exact py_wf|apply H1; reflexivity].
  - destruct (low_entropy v) as [m|]; cbn [message_record]; [|reflexivity]. eexists. split; [|reflexivity].
    eapply write_records_ok. apply records_fit; [exact le_wf|apply H2; reflexivity].
Qed.

Lemma rlen_length n b : 1 <= n < 16 -> Z.of_nat (length b) < 2 ^ 31 ->
  Z.of_nat (length (write_record (RLen n b))) = 1 + (varint_size32 (Z.of_nat (length b)) + Z.of_nat (length b)).
Proof.
  intros Hn Hb. cbn [write_record]. rewrite !app_length, (tag_length n 2), !Nat2Z.inj_add by lia.
  rewrite <- (varint_size32_ok (Z.of_nat (length b)) (write_varint (Z.of_nat (length b)))); [lia| |lia].
  apply write_varint_ok. lia.
Qed.

Lemma rlen_short n b : (length b <= length (write_record (RLen n b)))%nat.
Proof. cbn [write_record]. rewrite !app_length. lia. Qed.

Lemma write_records_cons r rs : write_records (r :: rs) = write_record r ++ write_records rs.
Proof. reflexivity. Qed.

Definition fits31 (v : clustering) : Prop := Z.of_nat (length (write_records (recs_of v))) < 2 ^ 31.

Definition short (v : clustering) : Prop :=
  (forall m, pitman_yor v = Some m -> Z.of_nat (length (write_records (message_records pys m))) < 2 ^ 31)
  /\ (forall m, low_entropy v = Some m -> Z.of_nat (length (write_records (message_records les m))) < 2 ^ 31).

Lemma parts_short v : fits31 v -> short v.
Proof.
  unfold fits31, recs_of. intros H. rewrite !write_records_app, !app_length in H. split; intros m E; rewrite E in H.
  - rewrite (write_records_cons _ []), app_length in H.
    pose proof (rlen_short 1 (write_records (message_records pys m))). lia.
  - rewrite (write_records_cons (RLen 2 _) []), app_length in H.
    pose proof (rlen_short 2 (write_records (message_records les m))). lia.
Qed.

Lemma recs_short d v : clustering_of d v -> short v -> Forall (fits (S d)) (recs_of v).
Proof.
  intros (H1 & H2 & H3) [S1 S2]. unfold recs_of.
  repeat (apply Forall_app; split).
  - destruct (pitman_yor v) as [m|]; constructor; [|constructor].
    constructor; [lia|apply S1; reflexivity|eapply message_records_bytes; [exact py_wf|apply H1; reflexivity]].
  - destruct (low_entropy v) as [m|]; constructor; [|constructor].
    constructor; [lia|apply S2; reflexivity|eapply message_records_bytes; [exact le_wf|apply H2; reflexivity]].
  - eapply Forall_impl; [|exact H3]. intros r [Hr _]. exact Hr.
Qed.

Lemma recs_of_fit d v : clustering_of d v -> fits31 v -> Forall (fits (S d)) (recs_of v).
Proof. intros H F. apply recs_short; auto. apply parts_short, F. Qed.

Lemma part_length rs : forall l n b, records_bytes rs l -> In (RLen n b) rs -> (length b <= length l)%nat.
Proof.
  induction rs as [|r rs IH]; intros l n b H I; [contradiction|].
  inversion H as [|r' rs' x y Hx Hy Er El]; subst. rewrite app_length. destruct I as [->|I].
  - inversion Hx; subst. rewrite !app_length. lia.
  - specialize (IH y n b Hy I). lia.
Qed.

Lemma recs_bytes d v l : clustering_of d v -> records_bytes (recs_of v) l -> Z.of_nat (length l) < 2 ^ 31 ->
  l = write_records (recs_of v) /\ fits31 v.
Proof.
  intros C H L.
  assert (S1 : short v).
  { split; intros m E.
    - assert (I : In (RLen 1 (write_records (message_records pys m))) (recs_of v)).
      { unfold recs_of. rewrite E. left. reflexivity. }
      pose proof (part_length _ _ _ _ H I). lia.
    - assert (I : In (RLen 2 (write_records (message_records les m))) (recs_of v)).
      { unfold recs_of. rewrite E. apply in_or_app. right. left. reflexivity. }
      pose proof (part_length _ _ _ _ H I). lia. }
  assert (E : l = write_records (recs_of v)) by exact (records_bytes_write (S d) _ l H (recs_short d v C S1)).
  split; [exact E|]. unfold fits31. rewrite <- E. exact L.
Qed.

Lemma write_message_ok direct d sch n m : wf sch -> message_of d sch m ->
  Z.of_nat (length (write_records (message_records sch m))) < 2 ^ 31 ->
  write_message direct (protoc sch) n m = Ok (write_record (RLen n (write_records (message_records sch m)))).
Proof.
  intros W Hm L. unfold write_message. rewrite (byte_size_ok d) by (auto; unfold i32_max; lia). cbn [obind].
  assert (E : write_stmts m (if direct then c_write_array (protoc sch) else c_write (protoc sch)) = serialize (protoc sch) m)
    by (destruct direct; reflexivity).
  rewrite E, serialize_ok by (eapply message_of_shaped; eauto). reflexivity.
Qed.

Lemma unknown_written us : match us with [] => [] | _ :: _ => write_records us end = write_records us.
Proof. destruct us; reflexivity. Qed.

Lemma cl_serialize_ok direct d o : clustering_of d (shows o) -> fits31 (shows o) ->
  cl_serialize direct o = Ok (write_records (recs_of (shows o))).
Proof.
  intros (H1 & H2 & H3) F. destruct (parts_short _ F) as [S1 S2]. unfold cl_serialize, recs_of.
  rewrite !write_records_app.
  unfold shows in *. cbn [pitman_yor low_entropy others] in *.
  assert (A : (if cl_has_py o then write_message (direct 1) Clustering_PitmanYor_code 1 (cl_pitman_yor o) else Ok [])
    = Ok (write_records match (if cl_has_py o then Some (cl_pitman_yor o) else None) with
        | Some m => [RLen 1 (write_records (message_records pys m))] | None => [] end)).
  { destruct (cl_has_py o); [|reflexivity]. rewrite py_code, (write_message_ok _ d pys) by (auto using py_wf).
    rewrite (write_records_cons _ []), app_nil_r. reflexivity. }
  assert (B : (if cl_has_le o then write_message (direct 2) Clustering_LowEntropy_code 2 (cl_low_entropy o) else Ok [])
    = Ok (write_records match (if cl_has_le o then Some (cl_low_entropy o) else None) with
        | Some m => [RLen 2 (write_records (message_records les m))] | None => [] end)).
  { destruct (cl_has_le o); [|reflexivity]. rewrite le_code, (write_message_ok _ d les) by (auto using le_wf).
    rewrite (write_records_cons _ []), app_nil_r. reflexivity. }
  rewrite A, B. cbn [obind]. destruct (cl_unknown o); reflexivity.
Qed.

Lemma cl_serialize_array_same o : cl_serialize_array o = cl_serialize (fun _ => true) o.
Proof. reflexivity. Qed.

Lemma message_size_ok d sch n m : wf sch -> message_of d sch m -> 1 <= n < 16 ->
  Z.of_nat (length (write_record (RLen n (write_records (message_records sch m))))) <= i32_max ->
  message_size (protoc sch) m
  = Ok (Z.of_nat (length (write_record (RLen n (write_records (message_records sch m))))) - 1).
Proof.
  intros W Hm Hn L. pose proof (rlen_short n (write_records (message_records sch m))) as Sh. unfold i32_max in L.
  assert (Hs : Z.of_nat (length (write_records (message_records sch m))) < 2 ^ 31) by lia.
  rewrite rlen_length in * by auto. unfold message_size. rewrite (byte_size_ok d) by (auto; unfold i32_max; lia).
  cbn [obind]. rewrite i32_ok; [f_equal; lia|]. unfold i32_min, i32_max.
  assert (0 <= varint_size32 (Z.of_nat (length (write_records (message_records sch m)))))
    by (unfold varint_size32; repeat destruct (_ <? _); lia).
  lia.
Qed.

Lemma cl_byte_size_ok d o : tidy o -> clustering_of d (shows o) -> fits31 (shows o) ->
  cl_byte_size o = Ok (Z.of_nat (length (write_records (recs_of (shows o))))).
Proof.
  intros T (H1 & H2 & H3) F. unfold cl_byte_size. destruct T as (B & _). unfold fits31 in F.
  assert (U : records_size (cl_unknown o) = Z.of_nat (length (write_records (cl_unknown o)))).
  { apply (records_size_write (S d)). eapply Forall_impl; [|exact H3]. intros r [Hr _]. exact Hr. }
  unfold recs_of in *. rewrite !write_records_app, !app_length, !Nat2Z.inj_add in *.
  set (a := Z.of_nat (length (write_records match pitman_yor (shows o) with
        | Some m => [RLen 1 (write_records (message_records pys m))] | None => [] end))) in *.
  set (b := Z.of_nat (length (write_records match low_entropy (shows o) with
        | Some m => [RLen 2 (write_records (message_records les m))] | None => [] end))) in *.
  assert (Pa : 0 <= a) by (unfold a; lia). assert (Pb : 0 <= b) by (unfold b; lia).
  change (others (shows o)) with (cl_unknown o) in *.
  assert (R : (if cl_has_any o then
              let* a := if cl_has_py o
                        then let* n := message_size Clustering_PitmanYor_code (cl_pitman_yor o) in
                             let* k := i32 (1 + n) in i32 (0 + k)
                        else Ok 0 in
              if cl_has_le o
              then let* n := message_size Clustering_LowEntropy_code (cl_low_entropy o) in
                   let* k := i32 (1 + n) in i32 (a + k)
              else Ok a
            else Ok 0) = Ok (a + b)).
  { assert (A : (if cl_has_py o
                 then let* n := message_size Clustering_PitmanYor_code (cl_pitman_yor o) in
                      let* k := i32 (1 + n) in i32 (0 + k)
                 else Ok 0) = Ok a).
    { unfold a, shows in *. cbn [pitman_yor low_entropy] in *. destruct (cl_has_py o); [|reflexivity].
      rewrite (write_records_cons _ []), app_nil_r in *.
      rewrite py_code, (message_size_ok d pys 1) by (auto using py_wf; unfold i32_max; lia). cbn [obind].
      rewrite i32_ok by (unfold i32_min, i32_max; lia). cbn [obind].
      rewrite i32_ok by (unfold i32_min, i32_max; lia). f_equal. lia. }
    assert (B' : (if cl_has_le o
              then let* n := message_size Clustering_LowEntropy_code (cl_low_entropy o) in
                   let* k := i32 (1 + n) in i32 (a + k)
              else Ok a) = Ok (a + b)).
    { clear A. clearbody a. unfold b, shows in *. cbn [pitman_yor low_entropy] in *. destruct (cl_has_le o).
      - rewrite (write_records_cons _ []), app_nil_r in *.
        rewrite le_code, (message_size_ok d les 2) by (auto using le_wf; unfold i32_max; lia). cbn [obind].
        rewrite i32_ok by (unfold i32_min, i32_max; lia). cbn [obind].
        rewrite i32_ok by (unfold i32_min, i32_max; lia). f_equal. lia.
      - f_equal. change (Z.of_nat (length (write_records []))) with 0. lia. }
    destruct (cl_has_any o) eqn:Ea.
    - rewrite A. cbn [obind]. exact B'.
    - assert (Z0 : cl_has_py o = false /\ cl_has_le o = false).
      { unfold cl_has_any, cl_has_py, cl_has_le in *. open_bits B; try discriminate; auto. }
      destruct Z0 as [Zp Zl]. unfold a, b, shows. cbn [pitman_yor low_entropy]. rewrite Zp, Zl. reflexivity. }
  rewrite R. cbn [obind].
  destruct (cl_unknown o) as [|u us] eqn:Eu.
  - f_equal. change (Z.of_nat (length (write_records []))) with 0. lia.
  - rewrite U. rewrite i32_ok by (unfold i32_min, i32_max; lia). cbn [obind].
    rewrite i32_ok by (unfold i32_min, i32_max; lia). f_equal. lia.
Qed.

Lemma cl_to_string_ok d o : tidy o -> clustering_of d (shows o) -> fits31 (shows o) ->
  cl_serialize_to_string o = Ok (write_records (recs_of (shows o))).
Proof.
  intros T H F. unfold cl_serialize_to_string. rewrite (cl_byte_size_ok d) by auto. cbn [obind].
  rewrite cl_serialize_array_same, (cl_serialize_ok _ d) by auto. cbn [obind]. rewrite Z.eqb_refl. reflexivity.
Qed.

(** * Reading what was written *)

Lemma P_records d sch rs m b : Forall (fits d) rs -> records_bytes rs b ->
  P sch d m b = absorb_all sch m rs.
Proof.
  intros F B. unfold P. rewrite (records_bytes_write d rs b B F), (decode_clipped _ d _ _ (decode_written d rs F)).
  reflexivity.
Qed.

Lemma P_written d sch m x : wf sch -> shaped sch m -> message_of d sch x ->
  P sch d m (write_records (message_records sch x)) = Some (merged x m).
Proof.
  intros W Hm Hx. pose proof (records_fit d sch x W Hx) as F.
  rewrite (P_records d sch _ m _ F (write_records_ok d _ F)). apply (absorb_merged d); auto.
Qed.

Lemma cabs_other d v r : ~ carries_message r ->
  cabs d v r = Some (Clustering (pitman_yor v) (low_entropy v) (others v ++ [r])).
Proof.
  intros H. unfold cabs. destruct r as [n x|n x|n b|n x|n x]; try reflexivity.
  destruct (Z.eqb_spec n 1) as [->|]; [destruct H; exists b; auto|].
  destruct (Z.eqb_spec n 2) as [->|]; [destruct H; exists b; auto|]. reflexivity.
Qed.

Lemma cabs_others d rs : forall v, Forall (fun r => ~ carries_message r) rs ->
  cabs_all d v rs = Some (Clustering (pitman_yor v) (low_entropy v) (others v ++ rs)).
Proof.
  induction rs as [|r rs IH]; intros v H; cbn [cabs_all].
  - rewrite app_nil_r. destruct v; reflexivity.
  - apply Forall_cons_iff in H as [Hr H]. rewrite cabs_other by auto. rewrite IH by auto.
    cbn [pitman_yor low_entropy others]. rewrite <- app_assoc. reflexivity.
Qed.

Definition opt_merged (sch : schema) (x m : option message) : option message :=
  match x with Some y => Some (merged y (or_empty sch m)) | None => m end.

Definition cmerged (x v : clustering) : clustering :=
  Clustering (opt_merged pys (pitman_yor x) (pitman_yor v)) (opt_merged les (low_entropy x) (low_entropy v))
             (others v ++ others x).

Definition cshaped (v : clustering) : Prop :=
  shaped pys (or_empty pys (pitman_yor v)) /\ shaped les (or_empty les (low_entropy v)).

Lemma tidy_shaped o : tidy o -> cshaped (shows o).
Proof.
  intros T. unfold cshaped. rewrite (py_or_empty o T), (le_or_empty o T). destruct T as (_ & A & B & _). auto.
Qed.

Lemma clustering_of_shaped d v : clustering_of d v -> cshaped v.
Proof.
  intros (H1 & H2 & _). split; unfold or_empty.
  - destruct (pitman_yor v); [eapply message_of_shaped; apply H1; reflexivity|apply shaped_empty].
  - destruct (low_entropy v); [eapply message_of_shaped; apply H2; reflexivity|apply shaped_empty].
Qed.

Lemma cabs_recs d v x : cshaped v -> clustering_of d x -> cabs_all (S d) v (recs_of x) = Some (cmerged x v).
Proof.
  intros [Sp Sl] (H1 & H2 & H3). unfold recs_of, cmerged. rewrite !cabs_all_app.
  assert (A : cabs_all (S d) v match pitman_yor x with
       | Some m => [RLen 1 (write_records (message_records pys m))] | None => [] end
     = Some (Clustering (opt_merged pys (pitman_yor x) (pitman_yor v)) (low_entropy v) (others v))).
  { destruct (pitman_yor x) as [m|]; cbn [cabs_all cabs Z.eqb Pos.eqb opt_merged].
    - rewrite (P_written d pys) by (auto using py_wf). reflexivity.
    - destruct v; reflexivity. }
  rewrite A. clear A. rewrite cabs_all_app. cbn [pitman_yor low_entropy others].
  set (v1 := Clustering _ _ _).
  assert (B : cabs_all (S d) v1 match low_entropy x with
       | Some m => [RLen 2 (write_records (message_records les m))] | None => [] end
     = Some (Clustering (pitman_yor v1) (opt_merged les (low_entropy x) (low_entropy v)) (others v))).
  { destruct (low_entropy x) as [m|]; cbn [cabs_all cabs Z.eqb Pos.eqb opt_merged].
    - change (low_entropy v1) with (low_entropy v). rewrite (P_written d les) by (auto using le_wf). reflexivity.
    - unfold v1. reflexivity. }
  rewrite B. rewrite cabs_others; [reflexivity|].
  eapply Forall_impl; [|exact H3]. intros r [_ Hr]. exact Hr.
Qed.

Lemma opt_merged_none sch x d : (forall m, x = Some m -> message_of d sch m) -> opt_merged sch x None = x.
Proof.
  intros H. destruct x as [m|]; [|reflexivity]. cbn [opt_merged or_empty].
  rewrite merged_empty; [reflexivity|]. eapply message_of_shaped; apply H; reflexivity.
Qed.

Lemma cmerged_none d x : clustering_of d x -> cmerged x (Clustering None None []) = x.
Proof.
  intros (H1 & H2 & _). unfold cmerged. cbn [pitman_yor low_entropy others].
  rewrite (opt_merged_none pys _ d H1), (opt_merged_none les _ d H2). destruct x; reflexivity.
Qed.

Lemma Q_records d v rs l : records_bytes rs l -> Forall (fits d) rs -> Q d v l = cabs_all d v rs.
Proof.
  intros B F. unfold Q. rewrite (records_bytes_write d rs l B F), (decode_clipped _ d _ _ (decode_written d rs F)).
  reflexivity.
Qed.

Lemma Q_written d v : clustering_of d v -> fits31 v -> Q (S d) (Clustering None None []) (write_records (recs_of v)) = Some v.
Proof.
  intros H F. pose proof (recs_of_fit d v H F) as R.
  rewrite (Q_records (S d) _ (recs_of v) _ (write_records_ok _ _ R) R).
  rewrite (cabs_recs d) by (auto; split; apply shaped_empty). rewrite (cmerged_none d); auto.
Qed.

(** * Accepted messages *)

Lemma or_empty_ok d sch x : (forall y, x = Some y -> message_of d sch y) -> message_of d sch (or_empty sch x).
Proof. intros H. destruct x; cbn [or_empty]; [apply H; reflexivity|apply empty_ok]. Qed.

Lemma cabs_ok d v r v' : clustering_of d v ->
  (fits (S d) r \/ match r with RLen n b => cclip n = true /\ Forall is_byte b | _ => False end) ->
  cabs (S d) v r = Some v' -> clustering_of d v'.
Proof.
  intros (H1 & H2 & H3) Hr E. unfold cabs in E.
  assert (O : ~ carries_message r -> fits (S d) r ->
    clustering_of d (Clustering (pitman_yor v) (low_entropy v) (others v ++ [r]))).
  { intros Nc Hf. split; [exact H1|]. split; [exact H2|]. cbn [others]. apply Forall_app. auto. }
  destruct r as [n x|n x|n b|n x|n x];
    try (injection E as <-; apply O; [intros [b [Hc|Hc]]; discriminate|destruct Hr as [Hr|[]]; exact Hr]).
  assert (Hb : Forall is_byte b).
  { destruct Hr as [Hr|[_ Hr]]; [inversion Hr; assumption|exact Hr]. }
  destruct (Z.eqb_spec n 1) as [N1|N1].
  - destruct (P pys d _ b) as [m|] eqn:Ep; [|discriminate]. injection E as <-.
    split; [|split; [exact H2|exact H3]]. cbn [pitman_yor]. intros m' Em. injection Em as <-.
    exact (P_ok pys py_wf d _ b m (or_empty_ok d pys _ H1) Hb Ep).
  - destruct (Z.eqb_spec n 2) as [N2|N2].
    + destruct (P les d _ b) as [m|] eqn:Ep; [|discriminate]. injection E as <-.
      split; [exact H1|split; [|exact H3]]. cbn [low_entropy]. intros m' Em. injection Em as <-.
      exact (P_ok les le_wf d _ b m (or_empty_ok d les _ H2) Hb Ep).
    + injection E as <-. apply O.
      * intros [b' [Hc|Hc]]; congruence.
      * destruct Hr as [Hr|[Hr _]]; [exact Hr|]. unfold cclip in Hr.
        apply Bool.orb_prop in Hr as [Hr|Hr]; apply Z.eqb_eq in Hr; congruence.
Qed.

Lemma Q_ok d v l v' : clustering_of d v -> Forall is_byte l -> Q (S d) v l = Some v' -> clustering_of d v'.
Proof.
  intros Hv Hl. unfold Q. destruct (clipped cclip (S d) l) as [rs|] eqn:E; [|discriminate].
  pose proof (clipped_fits cclip (S d) l rs Hl E) as F. clear E. revert v Hv.
  induction F as [|r rs Hr F IH]; intros v Hv H; cbn [cabs_all] in H; [congruence|].
  destruct (cabs (S d) v r) as [v1|] eqn:E1; [|discriminate]. apply (IH v1); auto. eapply cabs_ok; eauto.
Qed.

Lemma none_ok d : clustering_of d (Clustering None None []).
Proof. split; [|split]; cbn [pitman_yor low_entropy others]; [discriminate|discriminate|constructor]. Qed.

Lemma cabsorbs_ok d v r v' : clustering_absorbs d v r v' -> cabs (S d) v r = Some v'.
Proof.
  intros [v0 b rs m B F A|v0 b rs m B F A|v0 r0 Hc].
  - cbn [cabs Z.eqb Pos.eqb]. rewrite (P_records d pys rs _ b F B), (absorbs_all_ok pys py_wf _ _ _ A). reflexivity.
  - cbn [cabs Z.eqb Pos.eqb]. rewrite (P_records d les rs _ b F B), (absorbs_all_ok les le_wf _ _ _ A). reflexivity.
  - apply cabs_other. auto.
Qed.
Lemma cabsorbs_all_ok d v rs v' : clustering_absorbs_all d v rs v' -> cabs_all (S d) v rs = Some v'.
Proof. induction 1; cbn [cabs_all]; auto. erewrite cabsorbs_ok by eauto. auto. Qed.

(** * IsInitialized *)

Lemma cl_initialized_ok o : tidy o -> (cl_is_initialized o = true <-> clustering_complete (shows o)).
Proof.
  intros (_ & Hp & Hl & _). unfold cl_is_initialized, clustering_complete, shows. cbn [pitman_yor low_entropy].
  pose proof (is_initialized_ok pys _ Hp) as Ip. pose proof (is_initialized_ok les _ Hl) as Il.
  rewrite <- py_code in Ip. rewrite <- le_code in Il.
  assert (A : (cl_has_py o && negb (is_initialized Clustering_PitmanYor_code (cl_pitman_yor o)))%bool = false
    <-> (forall m, (if cl_has_py o then Some (cl_pitman_yor o) else None) = Some m -> complete pys m)).
  { destruct (cl_has_py o); cbn [andb].
    - rewrite Bool.negb_false_iff, Ip. split; [intros H m E; congruence|intros H; apply H; reflexivity].
    - split; [intros _ m E; discriminate|reflexivity]. }
  assert (B : (cl_has_le o && negb (is_initialized Clustering_LowEntropy_code (cl_low_entropy o)))%bool = false
    <-> (forall m, (if cl_has_le o then Some (cl_low_entropy o) else None) = Some m -> complete les m)).
  { destruct (cl_has_le o); cbn [andb].
    - rewrite Bool.negb_false_iff, Il. split; [intros H m E; congruence|intros H; apply H; reflexivity].
    - split; [intros _ m E; discriminate|reflexivity]. }
  rewrite <- A, <- B.
  destruct (cl_has_py o && _)%bool, (cl_has_le o && _)%bool; split; auto; try discriminate; intros [? ?]; congruence.
Qed.

Lemma cl_parse_cases room d o l o' : tidy o -> cl_parse_partial room d o l = Ok (Some o') -> tidy o' ->
  (clustering_complete (shows o') -> cl_parse room d o l = Ok (Some o'))
  /\ (~ clustering_complete (shows o') -> cl_parse room d o l = Ok None).
Proof.
  intros T E T'. unfold cl_parse. rewrite E. cbn [obind]. pose proof (cl_initialized_ok o' T') as I.
  destruct (cl_is_initialized o'); split; auto; intros H.
  - destruct H. apply I. reflexivity.
  - apply I in H. discriminate.
Qed.

(** * MergeFrom, CopyFrom *)

Lemma shaped_merged sch x m : shaped sch x -> shaped sch m -> shaped sch (merged x m).
Proof.
  unfold shaped, merged. cbn [slots]. intros Hx Hm. revert Hx. generalize (slots x).
  induction Hm as [|f s sub ss Hs Hm IH]; intros ss' Hx; inversion Hx; subst; cbn [zip_slots]; constructor; auto.
  apply shape_adds. auto.
Qed.

Lemma cl_merge_from_ok x o : tidy x -> tidy o -> exists o', cl_merge_from x o = Ok o' /\ tidy o'
  /\ shows o' = cmerged (shows x) (shows o).
Proof.
  intros Tx To.
  assert (A : exists a, (if cl_has_py x
                         then let o' := cl_mutable_py o in
                              let* m := merge_from Clustering_PitmanYor_code (cl_pitman_yor x) (cl_pitman_yor o') in
                              Ok (cl_set_py o' m)
                         else Ok o) = Ok a /\ tidy a
     /\ shows a = Clustering (opt_merged pys (pitman_yor (shows x)) (pitman_yor (shows o))) (low_entropy (shows o)) (others (shows o))).
  { assert (Sx : shaped pys (cl_pitman_yor x)) by apply Tx. assert (So : shaped pys (cl_pitman_yor o)) by apply To.
    unfold shows at 2. cbn [pitman_yor]. destruct (cl_has_py x).
    - cbv zeta. rewrite mutable_py_same, py_code.
      rewrite (merge_from_ok pys) by (auto using py_wf). cbn [obind]. eexists. split; [reflexivity|].
      cbn [opt_merged]. rewrite (py_or_empty o To). apply set_py_ok; auto. apply shaped_merged; auto.
    - eexists. split; [reflexivity|]. split; [exact To|]. cbn [opt_merged]. destruct (shows o); reflexivity. }
  destruct A as (a & A & Ta & Sa).
  assert (B : exists b, (if cl_has_le x
                         then let a' := cl_mutable_le a in
                              let* m := merge_from Clustering_LowEntropy_code (cl_low_entropy x) (cl_low_entropy a') in
                              Ok (cl_set_le a' m)
                         else Ok a) = Ok b /\ tidy b
     /\ shows b = Clustering (pitman_yor (shows a)) (opt_merged les (low_entropy (shows x)) (low_entropy (shows a))) (others (shows a))).
  { assert (Sx : shaped les (cl_low_entropy x)) by apply Tx. assert (So : shaped les (cl_low_entropy a)) by apply Ta.
    unfold shows at 3. cbn [low_entropy]. destruct (cl_has_le x).
    - cbv zeta. rewrite mutable_le_same, le_code.
      rewrite (merge_from_ok les) by (auto using le_wf). cbn [obind]. eexists. split; [reflexivity|].
      cbn [opt_merged]. rewrite (le_or_empty a Ta). apply set_le_ok; auto. apply shaped_merged; auto.
    - eexists. split; [reflexivity|]. split; [exact Ta|]. cbn [opt_merged]. destruct (shows a); reflexivity. }
  destruct B as (b & B & Tb & Sb).
  assert (C : (if cl_has_any x then
               let* a := if cl_has_py x
                         then let o' := cl_mutable_py o in
                              let* m := merge_from Clustering_PitmanYor_code (cl_pitman_yor x) (cl_pitman_yor o') in
                              Ok (cl_set_py o' m)
                         else Ok o in
               if cl_has_le x
               then let a' := cl_mutable_le a in
                    let* m := merge_from Clustering_LowEntropy_code (cl_low_entropy x) (cl_low_entropy a') in
                    Ok (cl_set_le a' m)
               else Ok a
             else Ok o) = Ok b).
  { destruct (cl_has_any x) eqn:Ea.
    - rewrite A. cbn [obind]. exact B.
    - assert (Z0 : cl_has_py x = false /\ cl_has_le x = false).
      { destruct Tx as (Bx & _). unfold cl_has_any, cl_has_py, cl_has_le in *. open_bits Bx; try discriminate; auto. }
      destruct Z0 as [Zp Zl]. rewrite Zp in A. rewrite Zl in B. congruence. }
  assert (D : cl_merge_from x o = Ok (ClObject (cl_bits b) (cl_py b) (cl_le b) (cl_unknown b ++ cl_unknown x))).
  { exact (f_equal (fun z => let* o1 := z in Ok (ClObject (cl_bits o1) (cl_py o1) (cl_le o1) (cl_unknown o1 ++ cl_unknown x))) C). }
  rewrite D. eexists. split; [reflexivity|]. split; [exact Tb|].
  rewrite Sa in Sb. cbn [pitman_yor low_entropy others] in Sb. unfold cmerged. rewrite <- (f_equal pitman_yor Sb : _ = opt_merged pys _ _).
  rewrite <- (f_equal low_entropy Sb : _ = opt_merged les _ _). rewrite <- (f_equal others Sb : _ = others (shows o)). reflexivity.
Qed.

Lemma cl_copy_from_ok d x o : tidy x -> tidy o -> clustering_of d (shows x) ->
  exists o', cl_copy_from x o = Ok o' /\ tidy o' /\ shows o' = shows x.
Proof.
  intros Tx To Hx. destruct (clear_tidy o To) as [Tc Sc]. unfold cl_copy_from.
  destruct (cl_merge_from_ok x (cl_clear o) Tx Tc) as (o' & A & B & C). exists o'. split; [exact A|]. split; [exact B|].
  rewrite C, Sc. apply (cmerged_none d); auto.
Qed.

Lemma merged_of d sch x m : wf sch -> message_of d sch x -> message_of d sch m -> message_of d sch (merged x m).
Proof.
  intros W Hx Hm. eapply (absorb_all_ok sch W d (message_records sch x) m); [exact Hm|apply records_fit; auto|].
  apply (absorb_merged d); auto. eapply message_of_shaped; eauto.
Qed.

Lemma opt_merged_of d sch x y : wf sch -> (forall m, x = Some m -> message_of d sch m) ->
  (forall m, y = Some m -> message_of d sch m) -> forall m, opt_merged sch x y = Some m -> message_of d sch m.
Proof.
  intros W Hx Hy m. destruct x as [a|]; cbn [opt_merged]; intros E; [|auto].
  assert (m = merged a (or_empty sch y)) by congruence. subst m. apply merged_of; auto. apply or_empty_ok. auto.
Qed.

Lemma cmerged_of d x v : clustering_of d x -> clustering_of d v -> clustering_of d (cmerged x v).
Proof.
  intros (H1 & H2 & H3) (G1 & G2 & G3). split; [|split]; unfold cmerged; cbn [pitman_yor low_entropy others].
  - apply opt_merged_of; auto using py_wf.
  - apply opt_merged_of; auto using le_wf.
  - apply Forall_app. auto.
Qed.

(** * All objects in use *)

Theorem in_use_ok d o : in_use d o -> tidy o /\ clustering_of d (shows o).
Proof.
  induction 1 as [|o m _ [T C] Hm|o m _ [T C] Hm|o _ [T C]|o _ [T C]|o _ [T C]|o _ [T C]|o _ [T C]
    |room o l o' _ [T C] Hl E|x o o' _ [Tx Cx] _ [T C] E|x o o' _ [Tx Cx] _ [T C] E].
  - split; [apply tidy_new|apply none_ok].
  - destruct (set_py_ok o m T (message_of_shaped _ _ _ Hm)) as [T' S']. split; [exact T'|]. rewrite S'.
    destruct C as (_ & C2 & C3). split; [|split; [exact C2|exact C3]]. cbn [pitman_yor]. intros m' E. congruence.
  - destruct (set_le_ok o m T (message_of_shaped _ _ _ Hm)) as [T' S']. split; [exact T'|]. rewrite S'.
    destruct C as (C1 & _ & C3). split; [exact C1|split; [|exact C3]]. cbn [low_entropy]. intros m' E. congruence.
  - destruct (clear_py_tidy o T) as [T' S']. split; [exact T'|]. rewrite S'.
    destruct C as (_ & C2 & C3). split; [discriminate|split; [exact C2|exact C3]].
  - destruct (clear_le_tidy o T) as [T' S']. split; [exact T'|]. rewrite S'.
    destruct C as (C1 & _ & C3). split; [exact C1|split; [discriminate|exact C3]].
  - destruct (release_py_tidy o T) as [T' S']. split; [exact T'|]. rewrite S'.
    destruct C as (_ & C2 & C3). split; [discriminate|split; [exact C2|exact C3]].
  - destruct (release_le_tidy o T) as [T' S']. split; [exact T'|]. rewrite S'.
    destruct C as (C1 & _ & C3). split; [exact C1|split; [discriminate|exact C3]].
  - destruct (clear_tidy o T) as [T' S']. split; [exact T'|]. rewrite S'. apply none_ok.
  - destruct (cl_parse_partial_ok room (S d) o l T) as (q & A & B & D). assert (q = Some o') by congruence. subst q.
    split; [apply D; reflexivity|]. cbn [option_map] in B. symmetry in B.
    exact (Q_ok d _ l _ (none_ok d) Hl B).
  - destruct (cl_merge_from_ok x o Tx T) as (o1 & A & B & D). assert (o1 = o') by congruence. subst o1.
    split; [exact B|]. rewrite D. apply cmerged_of; auto.
  - destruct (cl_copy_from_ok d x o Tx T Cx) as (o1 & A & B & D). assert (o1 = o') by congruence. subst o1.
    split; [exact B|]. rewrite D. exact Cx.
Qed.

(** * The statements *)

Theorem cl_written d o rs l : in_use d o -> clustering_records (shows o) rs -> records_bytes rs l ->
  Z.of_nat (length l) < 2 ^ 31 ->
  (forall direct, cl_serialize direct o = Ok l) /\ cl_byte_size o = Ok (Z.of_nat (length l))
  /\ cl_serialize_to_string o = Ok l
  /\ forall room o2, in_use d o2 -> exists o', cl_parse_partial room (S d) o2 l = Ok (Some o') /\ shows o' = shows o
       /\ (clustering_complete (shows o) -> cl_parse room (S d) o2 l = Ok (Some o')).
Proof.
  intros U Hr Hb L. destruct (in_use_ok d o U) as [T C].
  rewrite (clustering_records_unique d _ rs C Hr) in Hb. destruct (recs_bytes d _ l C Hb L) as [-> F].
  split; [intros direct; apply (cl_serialize_ok direct d); auto|].
  split; [apply (cl_byte_size_ok d); auto|]. split; [apply (cl_to_string_ok d); auto|].
  intros room o2 U2. destruct (in_use_ok d o2 U2) as [T2 _].
  destruct (cl_parse_partial_ok room (S d) o2 (write_records (recs_of (shows o))) T2) as (q & A & B & D).
  rewrite (Q_written d) in B by auto. destruct q as [o'|]; [|discriminate]. cbn [option_map] in B.
  assert (E : shows o' = shows o) by congruence. exists o'. split; [exact A|]. split; [exact E|]. intros Hc.
  apply (cl_parse_cases room (S d) o2 _ o' T2 A (D o' eq_refl)). rewrite E. exact Hc.
Qed.

Theorem cl_writable d o : in_use d o -> exists rs l, clustering_records (shows o) rs /\ records_bytes rs l.
Proof.
  intros U. destruct (in_use_ok d o U) as [_ C]. exists (recs_of (shows o)).
  destruct C as (H1 & H2 & H3) eqn:E. clear E.
  assert (W : forall rs, Forall (fun r => exists l, record_bytes r l) rs -> exists l, records_bytes rs l).
  { induction 1 as [|r rs [a Ha] _ [b Hb]]; [exists []; constructor|]. exists (a ++ b). constructor; auto. }
  assert (T : forall n b, 1 <= n < 16 -> exists l, record_bytes (RLen n b) l).
  { intros n b Hn.
    assert (V : forall z, 0 <= z -> exists l, varint z l).
    { intros z. pattern z. apply (well_founded_induction (Z.lt_wf 0)). clear. intros z IH Hz.
      destruct (Z_lt_dec z 128); [exists [z]; constructor; lia|].
      destruct (IH (z / 128)) as [l Hl]; [split; [apply Z.div_pos; lia|apply Z.div_lt; lia]|apply Z.div_pos; lia|].
      exists (128 + z mod 128 :: l). constructor; [lia|exact Hl]. }
    destruct (V (8 * n + 2) ltac:(lia)) as [t Ht]. destruct (V (Z.of_nat (length b)) ltac:(lia)) as [p Hp].
    exists (t ++ p ++ b). constructor; auto. }
  assert (R : Forall (fun r => exists l, record_bytes r l) (recs_of (shows o))).
  { unfold recs_of. repeat (apply Forall_app; split).
    - destruct (pitman_yor (shows o)); constructor; [apply T; lia|constructor].
    - destruct (low_entropy (shows o)); constructor; [apply T; lia|constructor].
    - eapply Forall_impl; [|exact H3]. intros r [Hr _]. eexists. eapply write_record_ok. exact Hr. }
  destruct (W _ R) as [l Hl]. exists l. split; [|exact Hl]. apply (clustering_records_exist d). split; auto.
Qed.

Theorem cl_any_writer d rs l v : records_bytes rs l -> Forall (fits (S d)) rs ->
  clustering_absorbs_all d (Clustering None None []) rs v ->
  forall room o, in_use d o -> exists o', cl_parse_partial room (S d) o l = Ok (Some o') /\ shows o' = v
    /\ (clustering_complete v -> cl_parse room (S d) o l = Ok (Some o'))
    /\ (~ clustering_complete v -> cl_parse room (S d) o l = Ok None).
Proof.
  intros Hl Hf Ha room o U. destruct (in_use_ok d o U) as [T _].
  destruct (cl_parse_partial_ok room (S d) o l T) as (q & A & B & D).
  rewrite (Q_records (S d) _ rs l Hl Hf), (cabsorbs_all_ok d _ _ _ Ha) in B.
  destruct q as [o'|]; [|discriminate]. cbn [option_map] in B.
  assert (E : shows o' = v) by congruence. exists o'. split; [exact A|]. split; [exact E|]. rewrite <- E.
  apply cl_parse_cases; auto.
Qed.

Theorem cl_any_bytes d room room' o l : in_use d o ->
  forall k, exists r r', cl_parse room k o l = Ok r /\ cl_parse room' k o l = Ok r'
    /\ option_map shows r = option_map shows r'.
Proof.
  intros U k. destruct (in_use_ok d o U) as [T _].
  destruct (cl_parse_partial_ok room k o l T) as (q & A & B & D).
  destruct (cl_parse_partial_ok room' k o l T) as (q' & A' & B' & D').
  unfold cl_parse. rewrite A, A'. cbn [obind]. eexists. eexists. split; [reflexivity|]. split; [reflexivity|].
  rewrite <- B in B'. clear B A A'. destruct q as [o1|], q' as [o2|]; cbn [option_map] in B'; try discriminate; [|reflexivity].
  assert (E : shows o2 = shows o1) by congruence.
  pose proof (cl_initialized_ok o1 (D o1 eq_refl)) as I1. pose proof (cl_initialized_ok o2 (D' o2 eq_refl)) as I2.
  rewrite E in I2. destruct (cl_is_initialized o1), (cl_is_initialized o2); cbn [option_map]; try congruence;
    exfalso; intuition discriminate.
Qed.

Theorem cl_accepted d room o l o' : in_use d o -> Forall is_byte l -> cl_parse room (S d) o l = Ok (Some o') ->
  in_use d o' /\ clustering_of d (shows o') /\ clustering_complete (shows o').
Proof.
  intros U Hl E. destruct (in_use_ok d o U) as [T _]. unfold cl_parse in E.
  destruct (cl_parse_partial_ok room (S d) o l T) as (q & A & B & D). rewrite A in E. cbn [obind] in E.
  destruct q as [o1|]; [|discriminate]. destruct (cl_is_initialized o1) eqn:I; [|discriminate].
  assert (o1 = o') by congruence. subst o1.
  assert (U' : in_use d o') by (eapply use_parse; eauto).
  split; [exact U'|]. split; [apply in_use_ok, U'|]. apply cl_initialized_ok; auto.
Qed.

Theorem cl_equal d x y rx ry lx ly : in_use d x -> in_use d y ->
  clustering_records (shows x) rx -> records_bytes rx lx -> Z.of_nat (length lx) < 2 ^ 31 ->
  clustering_records (shows y) ry -> records_bytes ry ly -> Z.of_nat (length ly) < 2 ^ 31 ->
  exists b, cl_eq x y = Ok b /\ (b = true <-> shows x = shows y).
Proof.
  intros Ux Uy Rx Bx Lx Ry By Ly. destruct (in_use_ok d x Ux) as [Tx Cx]. destruct (in_use_ok d y Uy) as [Ty Cy].
  rewrite (clustering_records_unique d _ rx Cx Rx) in Bx. destruct (recs_bytes d _ lx Cx Bx Lx) as [_ Fx].
  rewrite (clustering_records_unique d _ ry Cy Ry) in By. destruct (recs_bytes d _ ly Cy By Ly) as [_ Fy].
  unfold cl_eq. rewrite (cl_to_string_ok d x), (cl_to_string_ok d y) by auto. cbn [obind].
  eexists. split; [reflexivity|]. destruct (list_eq_dec Z.eq_dec _ _) as [E|N]; split; intros H; auto; try discriminate.
  - pose proof (Q_written d _ Cx Fx) as A. rewrite E, (Q_written d _ Cy Fy) in A. congruence.
  - rewrite H in N. congruence.
Qed.

Lemma opt_merged_over sch d x y : Forall (fun f => f_label f = Required) sch ->
  (forall m, y = Some m -> message_of d sch m) -> (forall m, x = Some m -> message_of d sch m) ->
  over sch x y (opt_merged sch y x).
Proof.
  intros Hr Hy Hx. destruct y as [b|]; cbn [over opt_merged]; [|reflexivity].
  eexists. split; [reflexivity|]. unfold message_over, merged. cbn [slots unknown]. split; [reflexivity|]. intros j.
  pose proof (message_of_shaped _ _ _ (Hy b eq_refl)) as Sb.
  pose proof (message_of_shaped _ _ _ (or_empty_ok d sch x Hx)) as Sx.
  pose proof (Forall2_len _ _ _ Sb) as Lb. pose proof (Forall2_len _ _ _ Sx) as Lx.
  rewrite zip_nth by congruence. destruct (nth_error sch j) as [f|] eqn:Ef.
  - destruct (Forall2_nth _ _ _ _ _ Sb Ef) as (s & Es & Hs). destruct (Forall2_nth _ _ _ _ _ Sx Ef) as (s' & Es' & Hs').
    rewrite Es, Es'. rewrite Forall_forall in Hr. unfold shape_ok in *. rewrite (Hr f (nth_error_In _ _ Ef)) in *.
    destruct s' as [a|]; [|contradiction]. destruct s as [[v|]|]; [| |contradiction]; reflexivity.
  - apply nth_error_None in Ef. rewrite !(proj2 (nth_error_None _ _)) by lia. exact I.
Qed.

Theorem cl_merged d x o : in_use d x -> in_use d o ->
  exists o', cl_merge_from x o = Ok o' /\ clustering_over (shows o) (shows x) (shows o')
    /\ forall rx ro lx lo, clustering_records (shows x) rx -> records_bytes rx lx -> Z.of_nat (length lx) < 2 ^ 31 ->
         clustering_records (shows o) ro -> records_bytes ro lo -> Z.of_nat (length lo) < 2 ^ 31 ->
         forall room o2, in_use d o2 ->
         exists o3, cl_parse_partial room (S d) o2 (lo ++ lx) = Ok (Some o3) /\ shows o3 = shows o'.
Proof.
  intros Ux Uo. destruct (in_use_ok d x Ux) as [Tx Cx]. destruct (in_use_ok d o Uo) as [To Co].
  destruct (cl_merge_from_ok x o Tx To) as (o' & A & T' & S'). exists o'. split; [exact A|]. split.
  - rewrite S'. destruct Cx as (X1 & X2 & X3). destruct Co as (O1 & O2 & O3). split; [|split; [|reflexivity]].
    + apply (opt_merged_over pys d); auto. repeat constructor.
    + apply (opt_merged_over les d); auto. repeat constructor.
  - intros rx ro lx lo Rx Bx Lx Ro Bo Lo room o2 U2. destruct (in_use_ok d o2 U2) as [T2 _].
    rewrite (clustering_records_unique d _ rx Cx Rx) in Bx. destruct (recs_bytes d _ lx Cx Bx Lx) as [-> Fx].
    rewrite (clustering_records_unique d _ ro Co Ro) in Bo. destruct (recs_bytes d _ lo Co Bo Lo) as [-> Fo].
    destruct (cl_parse_partial_ok room (S d) o2 (write_records (recs_of (shows o)) ++ write_records (recs_of (shows x))) T2)
      as (q & E & B & D).
    rewrite <- write_records_app in *.
    assert (F : Forall (fits (S d)) (recs_of (shows o) ++ recs_of (shows x))).
    { apply Forall_app. split; apply recs_of_fit; auto. }
    rewrite (Q_records (S d) _ _ _ (write_records_ok _ _ F) F), cabs_all_app in B.
    rewrite (cabs_recs d) in B by (auto; split; apply shaped_empty). rewrite (cmerged_none d) in B by auto.
    rewrite (cabs_recs d) in B by (auto; apply tidy_shaped; auto).
    destruct q as [o3|]; [|discriminate]. exists o3. split; [exact E|]. cbn [option_map] in B. congruence.
Qed.

Theorem cl_copied d x o : in_use d x -> in_use d o ->
  shows (cl_clear o) = Clustering None None []
  /\ (exists o', cl_copy_from x o = Ok o' /\ shows o' = shows x)
  /\ cl_pitman_yor (cl_mutable_py (cl_clear o)) = empty_message pys
  /\ cl_low_entropy (cl_mutable_le (cl_clear o)) = empty_message les.
Proof.
  intros Ux Uo. destruct (in_use_ok d x Ux) as [Tx Cx]. destruct (in_use_ok d o Uo) as [To Co].
  destruct (clear_tidy o To) as [Tc Sc]. split; [exact Sc|]. split.
  - destruct (cl_copy_from_ok d x o Tx To Cx) as (o' & A & _ & B). eauto.
  - rewrite mutable_py_same, mutable_le_same. destruct Tc as (_ & _ & _ & P1 & P2). split; [apply P1|apply P2]; reflexivity.
Qed.

Theorem cl_initialized d o : in_use d o -> (cl_is_initialized o = true <-> clustering_complete (shows o)).
Proof. intros U. apply cl_initialized_ok. apply (in_use_ok d o U). Qed.

(** What the accessors of one field do to the other. *)
Theorem cl_fields d o : in_use d o ->
  (forall m, shaped pys m -> shows (cl_set_py (cl_mutable_py o) m) = Clustering (Some m) (low_entropy (shows o)) (others (shows o)))
  /\ (forall m, shaped les m -> shows (cl_set_le (cl_mutable_le o) m) = Clustering (pitman_yor (shows o)) (Some m) (others (shows o)))
  /\ cl_pitman_yor (cl_mutable_py o) = or_empty pys (pitman_yor (shows o))
  /\ cl_low_entropy (cl_mutable_le o) = or_empty les (low_entropy (shows o))
  /\ shows (cl_clear_py o) = Clustering None (low_entropy (shows o)) (others (shows o))
  /\ shows (cl_clear_le o) = Clustering (pitman_yor (shows o)) None (others (shows o))
  /\ shows (cl_release_py o) = Clustering None (low_entropy (shows o)) (others (shows o))
  /\ shows (cl_release_le o) = Clustering (pitman_yor (shows o)) None (others (shows o)).
Proof.
  intros U. destruct (in_use_ok d o U) as [T _].
  split; [intros m Hm; apply set_py_ok; auto|]. split; [intros m Hm; apply set_le_ok; auto|].
  rewrite mutable_py_same, mutable_le_same, (py_or_empty o T), (le_or_empty o T).
  split; [reflexivity|]. split; [reflexivity|].
  split; [apply clear_py_tidy; auto|]. split; [apply clear_le_tidy; auto|].
  split; [apply release_py_tidy; auto|apply release_le_tidy; auto].
Qed.
