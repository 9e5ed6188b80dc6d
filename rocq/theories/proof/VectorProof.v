From Verif.model Require Import Base Num VectorMath.
From Verif.spec Require Import VectorSpec.
From Verif.proof Require Import BaseProof.

Lemma vget_some {A} (l : list A) i : i < length l -> exists x, nth_error l i = Some x /\ vget l i = Ok x.
Proof.
  intro H. unfold vget. destruct (nth_error l i) eqn:E; eauto.
  apply nth_error_None in E. lia.
Qed.
Lemma vget_nth {A} (l : list A) i x : nth_error l i = Some x -> vget l i = Ok x.
Proof. unfold vget. now intros ->. Qed.
Lemma vget_oob {A} (l : list A) i : length l <= i -> vget l i = UB.
Proof. intro H. apply nth_error_None in H. unfold vget. now rewrite H. Qed.
Lemma vset_ok {A} (l : list A) i x : i < length l -> vset l i x = Ok (upd l i x).
Proof. intro H. unfold vset. apply Nat.ltb_lt in H. now rewrite H. Qed.

Lemma nth_error_ext {A} (l1 l2 : list A) : (forall i, nth_error l1 i = nth_error l2 i) -> l1 = l2.
Proof.
  revert l2; induction l1 as [|a l1 IH]; intros [|b l2] H; auto.
  - specialize (H 0); discriminate. - specialize (H 0); discriminate.
  - f_equal; [specialize (H 0); simpl in H; congruence|]. apply IH. intro i. apply (H (S i)).
Qed.

Lemma skipn_nth {A} (l : list A) i x : nth_error l i = Some x -> skipn i l = x :: skipn (S i) l.
Proof. revert i; induction l as [|a l IH]; intros [|i] H; simpl in *; try discriminate; [congruence|]. auto. Qed.

Section V.
  Context {F : Type} {N : Num F}.

  (** A loop that writes entry i with a value depending on entry i only. *)
  Lemma vfor_map (body : nat -> list F -> outcome (list F)) (g : nat -> F -> F) : forall n lo l,
    lo + n <= length l ->
    (forall i l' x, lo <= i < lo + n -> length l' = length l -> nth_error l' i = Some x ->
       body i l' = Ok (upd l' i (g i x))) ->
    exists r, vfor lo n body l = Ok r /\ length r = length l /\
      (forall i x, lo <= i < lo + n -> nth_error l i = Some x -> nth_error r i = Some (g i x)) /\
      (forall i, i < lo \/ lo + n <= i -> nth_error r i = nth_error l i).
  Proof.
    induction n as [|n IH]; intros lo l Hl Hb; cbn [vfor].
    - exists l. repeat split; auto. intros; lia.
    - destruct (vget_some l lo) as (x & Hx & _); [lia|].
      rewrite (Hb lo l x) by (auto; lia). cbn [obind].
      destruct (IH (S lo) (upd l lo (g lo x))) as (r & E & Hlen & Hin & Hout).
      + rewrite length_upd. lia.
      + intros i l' y Hi Hl' Hy. rewrite length_upd in Hl'. apply Hb; auto; lia.
      + exists r. rewrite length_upd in Hlen. split; [exact E|]. split; [exact Hlen|]. split.
        * intros i y Hi Hy. destruct (Nat.eq_dec i lo) as [->|Hne].
          -- rewrite Hout by lia. rewrite nth_error_upd_eq by lia. congruence.
          -- apply Hin; [lia|]. rewrite nth_error_upd_ne by lia. exact Hy.
        * intros i Hi. rewrite Hout by lia. apply nth_error_upd_ne. lia.
  Qed.

  Lemma upd_body (f : nat -> F -> outcome F) (g : nat -> F -> F) i (l : list F) x :
    nth_error l i = Some x -> f i x = Ok (g i x) -> vupdate f i l = Ok (upd l i (g i x)).
  Proof.
    intros Hx Hf. unfold vupdate. rewrite (vget_nth _ _ _ Hx). cbn [obind]. rewrite Hf. cbn [obind].
    apply vset_ok. apply nth_error_Some. congruence.
  Qed.

  (** In-place kernels. *)
  Lemma vupdate_all (f : nat -> F -> outcome F) (g : nat -> F -> F) n l :
    n <= length l -> (forall i x, i < n -> f i x = Ok (g i x)) ->
    exists r, vfor 0 n (vupdate f) l = Ok r /\ elementwise n l r (fun i y =>
      exists x, nth_error l i = Some x /\ y = g i x).
  Proof.
    intros Hl Hf. destruct (vfor_map (vupdate f) g n 0 l) as (r & E & Hlen & Hin & Hout); [lia| |].
    - intros i l' x Hi _ Hx. apply upd_body; auto. apply Hf. lia.
    - exists r. split; [exact E|]. split; [exact Hlen|]. split.
      + intros i y Hi Hy. destruct (vget_some l i) as (x & Hx & _); [lia|].
        exists x. split; [exact Hx|]. specialize (Hin i x ltac:(lia) Hx). congruence.
      + intros i Hi. apply Hout. lia.
  Qed.

  Lemma vupdate_list (f : nat -> F -> outcome F) (g : F -> F) l :
    (forall i x, i < length l -> f i x = Ok (g x)) ->
    vfor 0 (length l) (vupdate f) l = Ok (map g l).
  Proof.
    intro Hf. destruct (vfor_map (vupdate f) (fun _ => g) (length l) 0 l) as (r & E & Hlen & Hin & Hout); [lia| |].
    - intros i l' x Hi _ Hx. apply (upd_body f (fun _ => g)); auto. apply Hf. lia.
    - rewrite E. f_equal. apply nth_error_ext. intro i.
      destruct (Nat.lt_ge_cases i (length l)) as [Hi|Hi].
      + destruct (vget_some l i Hi) as (x & Hx & _). rewrite (Hin i x) by (auto; lia).
        rewrite nth_error_map, Hx. reflexivity.
      + rewrite Hout by lia. rewrite nth_error_map.
        replace (nth_error l i) with (@None F); [reflexivity|]. symmetry. now apply nth_error_None.
  Qed.

  (** Accumulating loops. *)
  Lemma vfor_fold {B : Type} (l : list F) (f : B -> F -> B) (body : nat -> B -> outcome B) :
    (forall i x b, nth_error l i = Some x -> body i b = Ok (f b x)) ->
    forall n lo b, lo + n <= length l ->
    vfor lo n body b = Ok (fold_left f (firstn n (skipn lo l)) b).
  Proof.
    intro Hb. induction n as [|n IH]; intros lo b Hl; cbn [vfor]; [reflexivity|].
    destruct (vget_some l lo) as (x & Hx & _); [lia|].
    rewrite (Hb lo x b Hx). cbn [obind]. rewrite IH by lia.
    rewrite (skipn_nth _ _ _ Hx). reflexivity.
  Qed.

  Lemma vector_sum_spec n l : n <= length l ->
    vector_sum n l = Ok (fold_first n nadd (nof 0) l).
  Proof.
    intro H. unfold vector_sum, fold_first. rewrite (vfor_fold l nadd); [reflexivity| |lia].
    intros i x b Hx. rewrite (vget_nth _ _ _ Hx). reflexivity.
  Qed.

  Lemma vector_max_fold n x l : n <= S (length l) ->
    vector_max n (x :: l) = Ok (fold_first n (fun m y => if nltb m y then y else m) x (x :: l)).
  Proof.
    intro H. unfold vector_max. cbn [vget nth_error obind]. unfold fold_first.
    rewrite (vfor_fold (x :: l) (fun m y => if nltb m y then y else m)); [reflexivity| |simpl; lia].
    intros i y b Hy. rewrite (vget_nth _ _ _ Hy). reflexivity.
  Qed.

  Lemma vector_min_fold n x l : n <= S (length l) ->
    vector_min n (x :: l) = Ok (fold_first n (fun m y => if nltb y m then y else m) x (x :: l)).
  Proof.
    intro H. unfold vector_min. cbn [vget nth_error obind]. unfold fold_first.
    rewrite (vfor_fold (x :: l) (fun m y => if nltb y m then y else m)); [reflexivity| |simpl; lia].
    intros i y b Hy. rewrite (vget_nth _ _ _ Hy). reflexivity.
  Qed.

  Lemma vector_dot_spec n a b : n <= length a -> n <= length b ->
    vector_dot n a b = Ok (fold_first n (fun s p => nadd s (nmul (fst p) (snd p))) (nof 0) (combine a b)).
  Proof.
    intros Ha Hb. unfold vector_dot, fold_first.
    assert (G : forall n lo s, lo + n <= length (combine a b) ->
       vfor lo n (fun i res => let* x := vget a i in let* y := vget b i in Ok (nadd res (nmul x y))) s =
       Ok (fold_left (fun s p => nadd s (nmul (fst p) (snd p))) (firstn n (skipn lo (combine a b))) s)).
    { clear n Ha Hb. induction n as [|n IH]; intros lo s Hl; cbn [vfor]; [reflexivity|].
      assert (Hx : exists p, nth_error (combine a b) lo = Some p).
      { destruct (nth_error (combine a b) lo) eqn:E; eauto. apply nth_error_None in E. lia. }
      destruct Hx as [[x y] Hx].
      assert (Hab : nth_error a lo = Some x /\ nth_error b lo = Some y).
      { clear - Hx. revert b lo Hx. induction a as [|u a IH]; intros [|v b] [|lo] H; simpl in *; try discriminate.
        - injection H as -> ->. auto. - eauto. }
      destruct Hab as [Hxa Hyb]. rewrite (vget_nth _ _ _ Hxa), (vget_nth _ _ _ Hyb). cbn [obind].
      rewrite IH by lia. rewrite (skipn_nth _ _ _ Hx). reflexivity. }
    rewrite G; [reflexivity|]. rewrite combine_length. lia.
  Qed.

  Local Open Scope num_scope.
  Ltac kern g := match goal with |- exists r, vfor 0 ?n (vupdate ?f) ?l = Ok r /\ _ =>
    destruct (vupdate_all f g n l) as (r & E & El); [assumption| | exists r; split; [exact E|exact El]] end.

  Lemma shift_ok n io s : (n <= length io)%nat -> exists r, vector_shift n io s = Ok r /\
    elementwise n io r (fun i y => exists x, nth_error io i = Some x /\ y = x + s).
  Proof. intros. unfold vector_shift. kern (fun (_ : nat) x => x + s). reflexivity. Qed.
  Lemma scale_ok n io s : (n <= length io)%nat -> exists r, vector_scale n io s = Ok r /\
    elementwise n io r (fun i y => exists x, nth_error io i = Some x /\ y = x * s).
  Proof. intros. unfold vector_scale. kern (fun (_ : nat) x => x * s). reflexivity. Qed.
  Lemma negate_ok n io : (n <= length io)%nat -> exists r, vector_negate n io = Ok r /\
    elementwise n io r (fun i y => exists x, nth_error io i = Some x /\ y = - x).
  Proof. intros. unfold vector_negate. kern (fun (_ : nat) x => - x). reflexivity. Qed.
  Lemma map_io_ok (f : F -> F) n io : (n <= length io)%nat -> exists r, vector_map_io f n io = Ok r /\
    elementwise n io r (fun i y => exists x, nth_error io i = Some x /\ y = f x).
  Proof. intros. unfold vector_map_io. kern (fun (_ : nat) x => f x). reflexivity. Qed.

  Definition dflt (l : list F) (i : nat) : F := nth i l (nof 0).
  Lemma dflt_get l i : (i < length l)%nat -> vget l i = Ok (dflt l i).
  Proof. intro H. unfold vget, dflt. rewrite (nth_error_nth' l (nof 0) H). reflexivity. Qed.
  Lemma dflt_nth l i : (i < length l)%nat -> nth_error l i = Some (dflt l i).
  Proof. intro H. apply nth_error_nth'. exact H. Qed.

  Lemma bin_ok (f : nat -> F -> outcome F) (g : F -> F -> F) n io inp :
    (n <= length io)%nat -> (n <= length inp)%nat ->
    (forall i x a, vget inp i = Ok a -> f i x = Ok (g x a)) ->
    exists r, vfor 0 n (vupdate f) io = Ok r /\
    elementwise n io r (fun i y => exists x a, nth_error io i = Some x /\ nth_error inp i = Some a /\ y = g x a).
  Proof.
    intros H1 H2 Hf. destruct (vupdate_all f (fun i x => g x (dflt inp i)) n io H1) as (r & E & L & I & O).
    - intros i x Hi. apply Hf. apply dflt_get. lia.
    - exists r. split; [exact E|]. split; [exact L|]. split; [|exact O].
      intros i y Hi Hy. destruct (I i y Hi Hy) as (x & Hx & ->). exists x, (dflt inp i).
      split; [exact Hx|]. split; [apply dflt_nth; lia|reflexivity].
  Qed.

  Lemma tri_ok (f : nat -> F -> outcome F) (g : F -> F -> F -> F) n io in1 in2 :
    (n <= length io)%nat -> (n <= length in1)%nat -> (n <= length in2)%nat ->
    (forall i x a b, vget in1 i = Ok a -> vget in2 i = Ok b -> f i x = Ok (g x a b)) ->
    exists r, vfor 0 n (vupdate f) io = Ok r /\
    elementwise n io r (fun i y => exists x a b, nth_error io i = Some x /\ nth_error in1 i = Some a /\
       nth_error in2 i = Some b /\ y = g x a b).
  Proof.
    intros H1 H2 H3 Hf.
    destruct (vupdate_all f (fun i x => g x (dflt in1 i) (dflt in2 i)) n io H1) as (r & E & L & I & O).
    - intros i x Hi. apply Hf; apply dflt_get; lia.
    - exists r. split; [exact E|]. split; [exact L|]. split; [|exact O].
      intros i y Hi Hy. destruct (I i y Hi Hy) as (x & Hx & ->). exists x, (dflt in1 i), (dflt in2 i).
      repeat split; [exact Hx|apply dflt_nth; lia|apply dflt_nth; lia].
  Qed.

  Lemma add_ok n io inp : (n <= length io)%nat -> (n <= length inp)%nat ->
    exists r, vector_add n io inp = Ok r /\
    elementwise n io r (fun i y => exists x a, nth_error io i = Some x /\ nth_error inp i = Some a /\ y = x + a).
  Proof. intros. apply bin_ok; auto. intros i x a ->. reflexivity. Qed.
  Lemma negate_and_add_ok n io inp : (n <= length io)%nat -> (n <= length inp)%nat ->
    exists r, vector_negate_and_add n io inp = Ok r /\
    elementwise n io r (fun i y => exists x a, nth_error io i = Some x /\ nth_error inp i = Some a /\ y = a - x).
  Proof. intros. apply (bin_ok _ (fun x a => a - x)); auto. intros i x a ->. reflexivity. Qed.
  Lemma add_subtract_scalar_ok n io s inp : (n <= length io)%nat -> (n <= length inp)%nat ->
    exists r, vector_add_subtract_scalar n io s inp = Ok r /\
    elementwise n io r (fun i y => exists x a, nth_error io i = Some x /\ nth_error inp i = Some a /\ y = x + (s - a)).
  Proof. intros. apply (bin_ok _ (fun x a => x + (s - a))); auto. intros i x a ->. reflexivity. Qed.
  Lemma add_add_ok n io a b : (n <= length io)%nat -> (n <= length a)%nat -> (n <= length b)%nat ->
    exists r, vector_add_add n io a b = Ok r /\
    elementwise n io r (fun i y => exists x u v, nth_error io i = Some x /\ nth_error a i = Some u /\
       nth_error b i = Some v /\ y = x + (u + v)).
  Proof. intros. apply (tri_ok _ (fun x u v => x + (u + v))); auto. intros i x u v -> ->. reflexivity. Qed.
  Lemma add_subtract_ok n io a b : (n <= length io)%nat -> (n <= length a)%nat -> (n <= length b)%nat ->
    exists r, vector_add_subtract n io a b = Ok r /\
    elementwise n io r (fun i y => exists x u v, nth_error io i = Some x /\ nth_error a i = Some u /\
       nth_error b i = Some v /\ y = x + (u - v)).
  Proof. intros. apply (tri_ok _ (fun x u v => x + (u - v))); auto. intros i x u v -> ->. reflexivity. Qed.
  Lemma multiply_add_ok n io a b : (n <= length io)%nat -> (n <= length a)%nat -> (n <= length b)%nat ->
    exists r, vector_multiply_add n io a b = Ok r /\
    elementwise n io r (fun i y => exists x u v, nth_error io i = Some x /\ nth_error a i = Some u /\
       nth_error b i = Some v /\ y = x + u * v).
  Proof. intros. apply (tri_ok _ (fun x u v => x + u * v)); auto. intros i x u v -> ->. reflexivity. Qed.

  Lemma out_ok (body : nat -> list F -> outcome (list F)) (h : nat -> F) n out :
    (n <= length out)%nat -> (forall i o, (i < n)%nat -> body i o = vset o i (h i)) ->
    exists r, vfor 0 n body out = Ok r /\ elementwise n out r (fun i y => y = h i).
  Proof.
    intros Hl Hb. destruct (vfor_map body (fun i _ => h i) n 0 out) as (r & E & L & I & O); [lia| |].
    - intros i l' x Hi Hl' Hx. rewrite Hb by lia. apply vset_ok. lia.
    - exists r. split; [exact E|]. split; [exact L|]. split.
      + intros i y Hi Hy. destruct (vget_some out i) as (x & Hx & _); [lia|].
        specialize (I i x ltac:(lia) Hx). congruence.
      + intros. apply O. lia.
  Qed.
  Lemma zero_ok n out : (n <= length out)%nat ->
    exists r, vector_zero n out = Ok r /\ elementwise n out r (fun i y => y = nof 0).
  Proof. intros. apply (out_ok _ (fun _ => nof 0)); auto. Qed.
  Lemma map_ok (f : F -> F) n inp out : (n <= length inp)%nat -> (n <= length out)%nat ->
    exists r, vector_map f n inp out = Ok r /\
    elementwise n out r (fun i y => exists x, nth_error inp i = Some x /\ y = f x).
  Proof.
    intros H1 H2. destruct (out_ok (fun i o => let* x := vget inp i in vset o i (f x)) (fun i => f (dflt inp i)) n out H2)
      as (r & E & L & I & O).
    - intros i o Hi. rewrite dflt_get by lia. reflexivity.
    - exists r. split; [exact E|]. split; [exact L|]. split; [|exact O].
      intros i y Hi Hy. rewrite (I i y Hi Hy). exists (dflt inp i). split; [apply dflt_nth; lia|reflexivity].
  Qed.
End V.
