(** Closeness: reflexive in IEEE arithmetic, symmetric in exact arithmetic. *)
From Coq Require Import SpecFloat Reals Lra.
From Verif.model Require Import Base AssertClose.
From Verif.spec Require Import CloseSpec.
Local Open Scope Z_scope.

(** *** Signs of rounded results *)
Definition sf_nonneg (x : spec_float) : Prop :=
  match x with
  | S754_zero _ | S754_infinity false | S754_finite false _ _ => True
  | _ => False
  end.
Definition sf_finite (x : spec_float) : Prop :=
  match x with S754_zero _ | S754_finite _ _ _ => True | _ => False end.

Lemma shr_1_nonneg r : 0 <= shr_m r -> 0 <= shr_m (shr_1 r).
Proof. destruct r as [[| [p | p |] | p] a b]; cbn; lia. Qed.

Lemma iter_nonneg p : forall r, 0 <= shr_m r -> 0 <= shr_m (SpecFloat.iter_pos shr_1 p r).
Proof.
  induction p as [p IH | p IH |]; intros r H; cbn [SpecFloat.iter_pos].
  - apply IH, IH, shr_1_nonneg, H.
  - apply IH, IH, H.
  - apply shr_1_nonneg, H.
Qed.

Lemma shr_fexp_nonneg prec emax m e l : 0 <= m -> 0 <= shr_m (fst (shr_fexp prec emax m e l)).
Proof.
  intros H. unfold shr_fexp, shr.
  assert (0 <= shr_m (shr_record_of_loc m l)) by (destruct l as [| [| |]]; exact H).
  destruct (_ - _); cbn [fst]; auto. now apply iter_nonneg.
Qed.

Lemma round_nonneg m l : 0 <= m -> 0 <= round_nearest_even m l.
Proof. intros H. destruct l as [| [| |]]; cbn; try lia. destruct (Z.even m); lia. Qed.

Lemma round_aux_nonneg prec emax m e l : 0 <= m ->
  sf_nonneg (binary_round_aux prec emax false m e l).
Proof.
  intros H. unfold binary_round_aux.
  pose proof (shr_fexp_nonneg prec emax m e l H) as H1.
  destruct (shr_fexp prec emax m e l) as [r1 e1]. cbn [fst] in H1.
  pose proof (shr_fexp_nonneg prec emax _ e1 loc_Exact (round_nonneg _ (loc_of_shr_record r1) H1)) as H2.
  destruct (shr_fexp prec emax (round_nearest_even _ _) e1 loc_Exact) as [r2 e2]. cbn [fst] in H2.
  destruct (shr_m r2); [exact I | | lia]. destruct (_ <=? _); exact I.
Qed.

Lemma normalize_nonneg prec emax m e : 0 <= m -> sf_nonneg (binary_normalize prec emax m e false).
Proof.
  intros H. destruct m; cbn; [exact I | | lia].
  unfold binary_round. destruct (shl_align _ _ _). apply round_aux_nonneg. lia.
Qed.

Lemma add_nonneg prec emax x y : sf_nonneg x -> sf_nonneg y -> sf_nonneg (SFadd prec emax x y).
Proof.
  destruct x as [[|] | [|] | | [|] mx ex]; cbn; try contradiction; intros _;
  destruct y as [[|] | [|] | | [|] my ey]; cbn; try contradiction; intros _; try exact I.
  unfold binary_round. destruct (shl_align (_ + _) _ _). apply round_aux_nonneg. lia.
Qed.

Lemma abs_nonneg x : sf_finite x -> sf_nonneg (SFabs x).
Proof. destruct x; cbn; tauto. Qed.

Lemma mul_nonneg prec emax x m e : sf_nonneg x ->
  sf_nonneg (SFmul prec emax x (S754_finite false m e)).
Proof.
  destruct x as [[|] | [|] | | [|] mx ex]; cbn; try contradiction; intros _; try exact I.
  apply round_aux_nonneg. lia.
Qed.

Lemma sub_diag prec emax x : sf_finite x -> exists s, SFsub prec emax x x = S754_zero s.
Proof.
  destruct x as [s | s | | s m e]; cbn; try contradiction; intros _.
  - destruct s; eexists; reflexivity.
  - rewrite Z.min_id. rewrite Z.sub_diag. eexists; reflexivity.
Qed.

Lemma zero_leb s x : sf_nonneg x -> SFleb (S754_zero s) x = true.
Proof. destruct x as [[|] | [|] | | [|] m e]; cbn; tauto. Qed.

Lemma ieee_refl prec emax m1 e1 m2 e2 x : sf_finite x ->
  ieee_close prec emax (S754_finite false m1 e1) (S754_finite false m2 e2) x x = true.
Proof.
  intros H. unfold ieee_close. destruct (sub_diag prec emax x H) as (s & ->).
  cbn [SFabs]. apply zero_leb. apply mul_nonneg.
  apply add_nonneg; [apply add_nonneg; [exact I |] |]; now apply abs_nonneg.
Qed.

Lemma sfeqb_refl x : sf_finite x -> SFeqb x x = true.
Proof.
  destruct x as [[|] | s | | [|] m e]; cbn; try contradiction; intros _; unfold SFeqb; cbn; auto;
    rewrite Z.compare_refl; change (Pcompare m m Eq) with (Pos.compare m m); now rewrite Pos.compare_refl.
Qed.

(** *** Structure *)
Section Struct.
Context {F : Type}.
Variable fclose feq : F -> F -> bool.

Lemma all2_refl {A} (p : A -> A -> bool) l : Forall (fun a => p a a = true) l -> all2 p l l = true.
Proof. induction 1 as [| a l H _ IH]; cbn; [reflexivity | now rewrite H]. Qed.

Lemma all2_sym {A} (p q : A -> A -> bool) :
  (forall a b, p a b = q b a) -> forall x y, all2 p x y = all2 q y x.
Proof.
  intros H. induction x as [| a x IH]; intros [| b y]; cbn; try reflexivity.
  rewrite H. destruct (q b a); auto.
Qed.

Lemma all2_spec {A} (p : A -> A -> bool) (P : A -> A -> Prop) :
  (forall a b, p a b = true <-> P a b) -> forall x y, all2 p x y = true <-> Forall2 P x y.
Proof.
  intros H. induction x as [| a x IH]; intros [| b y]; cbn.
  - split; [constructor | reflexivity].
  - split; [discriminate | intros K; inversion K].
  - split; [discriminate | intros K; inversion K].
  - destruct (p a b) eqn:E.
    + rewrite IH. apply H in E. split; [now constructor | intros K; now inversion K].
    + split; [discriminate |]. intros K. inversion K; subst.
      match goal with B : P a b |- _ => apply H in B; congruence end.
Qed.

Lemma all2_length {A} (p : A -> A -> bool) x y : all2 p x y = true -> length x = length y.
Proof.
  revert y. induction x as [| a x IH]; intros [| b y]; cbn; try discriminate; auto.
  destruct (p a b); [| discriminate]. intros H. f_equal. auto.
Qed.

(** The size test in front of the loop. *)
Lemma sized {A} (p : A -> A -> bool) (x y : list A) :
  (if Nat.eqb (length x) (length y) then all2 p x y else false) = all2 p x y.
Proof.
  destruct (Nat.eqb_spec (length x) (length y)) as [| N]; [reflexivity |].
  destruct (all2 p x y) eqn:E; [| reflexivity]. exfalso. apply N. eapply all2_length, E.
Qed.

Lemma vec_close t x y : are_close fclose feq (SVec t) x y =
  all2 (match t with SPair _ _ => same feq t | _ => are_close fclose feq t end) x y.
Proof. destruct t; cbn [are_close]; apply sized. Qed.

Lemma same_refl (P : F -> Prop) : (forall a, P a -> feq a a = true) ->
  forall s v, leaves P s v -> same feq s v v = true.
Proof.
  intros H. induction s as [| | t IH | a IHa b IHb]; intros v HL; cbn in *.
  - apply Z.eqb_refl.
  - now apply H.
  - apply all2_refl. eapply Forall_impl; [| exact HL]. exact IH.
  - destruct HL as [HA HB]. now rewrite IHa, IHb.
Qed.

Lemma close_refl (P : F -> Prop) : (forall a, P a -> feq a a = true) ->
  (forall a, P a -> fclose a a = true) ->
  forall s v, leaves P s v -> are_close fclose feq s v v = true.
Proof.
  intros HE HC. induction s as [| | t IH | a IHa b IHb]; intros v HL.
  - apply Z.eqb_refl.
  - now apply HC.
  - rewrite vec_close. apply all2_refl. cbn [leaves] in HL. eapply Forall_impl; [| exact HL].
    intros w Hw. destruct t; try (apply IH, Hw). eapply (same_refl P HE); exact Hw.
  - cbn in *. destruct HL as [HA HB]. now rewrite IHa, IHb.
Qed.

Lemma same_sym : (forall a b, feq a b = feq b a) ->
  forall s v w, same feq s v w = same feq s w v.
Proof.
  intros H. induction s as [| | t IH | a IHa b IHb]; intros v w; cbn.
  - apply Z.eqb_sym.
  - apply H.
  - now apply all2_sym.
  - rewrite IHa, IHb. reflexivity.
Qed.

Lemma close_sym : (forall a b, feq a b = feq b a) -> (forall a b, fclose a b = fclose b a) ->
  forall s v w, are_close fclose feq s v w = are_close fclose feq s w v.
Proof.
  intros HE HC. induction s as [| | t IH | a IHa b IHb]; intros v w.
  - apply Z.eqb_sym.
  - apply HC.
  - rewrite !vec_close. apply all2_sym. intros c d. destruct t; try apply IH. now apply same_sym.
  - cbn. rewrite IHa, IHb. reflexivity.
Qed.

Lemma close_leafwise (near : F -> F -> Prop) : (forall a b, fclose a b = true <-> near a b) ->
  forall s, no_vec_of_pair s -> forall v w, are_close fclose feq s v w = true <-> leafwise near s v w.
Proof.
  intros H. induction s as [| | t IH | a IHa b IHb]; intros NP v w.
  - apply Z.eqb_eq.
  - apply H.
  - rewrite vec_close. cbn [leafwise]. apply all2_spec. intros c d.
    destruct t; cbn in NP; try contradiction; now apply IH.
  - destruct NP as [NA NB]. cbn [are_close leafwise]. destruct (are_close fclose feq a (fst v) (fst w)) eqn:E.
    + pose proof (IHb NB (snd v) (snd w)) as HB. apply (IHa NA) in E.
      split; [intros K; split; [exact E | apply HB, K] |]. intros [_ K]. apply HB, K.
    + split; [discriminate |]. intros [K _]. apply (IHa NA) in K. congruence.
Qed.
End Struct.

Lemma closeR_sym x y : closeR x y = closeR y x.
Proof.
  unfold closeR. rewrite (Rabs_minus_sym x y).
  replace (1 + Rabs x + Rabs y)%R with (1 + Rabs y + Rabs x)%R by ring. reflexivity.
Qed.
Lemma eqR_sym x y : eqR x y = eqR y x.
Proof. unfold eqR. destruct (Req_EM_T x y), (Req_EM_T y x); congruence. Qed.
Lemma closeR_spec x y : closeR x y = true <-> (Rabs (x - y) <= (1 + Rabs x + Rabs y) * tolR)%R.
Proof. unfold closeR. destruct (Rle_dec _ _); split; intros; congruence || contradiction || auto. Qed.
