(** Properties C51 and C65: the closeness test behind DIST_ASSERT_CLOSE, in IEEE
    arithmetic (Coq.Floats.SpecFloat) and in exact arithmetic. *)
From Coq Require Import SpecFloat Reals Lra.
From Verif.model Require Import Base AssertClose.
From Verif.spec Require Import CloseSpec.
From Verif.proof Require Import CloseProof.
Local Open Scope Z_scope.

Definition finite (x : spec_float) : Prop :=
  match x with S754_zero _ | S754_finite _ _ _ => True | _ => False end.

(** The constants are 1, and 13421773 / 2^27 (the float nearest to 0.1) in both formats. *)
Example tol_constants : 13421773 * 2 ^ 29 = 7205759511166976 /\ 8388608 = 2 ^ 23 /\
  4503599627370496 = 2 ^ 52 /\ 2 * Z.abs (13421773 * 10 - 2 ^ 27) <= 10 /\
  valid_binary 53 1024 tol64 = true /\ valid_binary 24 128 tol32 = true.
Proof. repeat split; vm_compute; try reflexivity; discriminate. Qed.

(** Every value built from finite numbers is close to itself, in float and in double. *)
Theorem C51_reflexive : forall s v, leaves finite s v ->
  are_close64 s v v = true /\ are_close32 s v v = true.
Proof.
  intros s v H. split.
  - exact (close_refl _ _ finite (fun a => sfeqb_refl a) (fun a => ieee_refl 53 1024 _ _ _ _ a) s v H).
  - exact (close_refl _ _ finite (fun a => sfeqb_refl a) (fun a => ieee_refl 24 128 _ _ _ _ a) s v H).
Qed.
Print Assumptions C51_reflexive.

(** Vectors of pairs of a number and a vector. *)
Example C51_nonvacuous :
  leaves finite (SVec (SPair SNum (SVec SNum)))
    [(one64, [S754_zero true; tol64]); (S754_finite true 5 7, [])] /\
  are_close64 (SPair SNum (SVec SNum)) (one64, [tol64; one64]) (tol64, [one64; one64]) = false.
Proof. split; [repeat constructor | vm_compute; reflexivity]. Qed.

(** Infinities are not close to themselves. *)
Example C51_infinity : are_close64 SNum (S754_infinity false) (S754_infinity false) = false.
Proof. reflexivity. Qed.

(** C51's symmetry fails in IEEE arithmetic: 1+|x|+|y| is rounded in an order that depends
    on which argument comes first.  Witnesses are normal numbers of moderate size. *)
Theorem C51_symmetric_refuted :
  (exists x y, finite x /\ finite y /\ valid_binary 53 1024 x = true /\ valid_binary 53 1024 y = true /\
     are_close64 SNum x y = true /\ are_close64 SNum y x = false) /\
  (exists x y, finite x /\ finite y /\ valid_binary 24 128 x = true /\ valid_binary 24 128 y = true /\
     are_close32 SNum x y = true /\ are_close32 SNum y x = false).
Proof.
  split.
  - exists (S754_finite false 0x17b6a4b3eae46e (-62)), (S754_finite false 0x1ce5b5d7cdf228 (-56)).
    repeat split; vm_compute; reflexivity.
  - exists (S754_finite false 0x89d1fd (-22)), (S754_finite false 0xd5e341 (-23)).
    repeat split; vm_compute; reflexivity.
Qed.
Print Assumptions C51_symmetric_refuted.

(** In exact arithmetic the test is symmetric on every type.  Missing for the IEEE test:
    a bound on the band around the threshold inside which the order matters. *)
Theorem C51_symmetric_partial : forall s v w, are_closeR s v w = are_closeR s w v.
Proof. exact (close_sym closeR eqR eqR_sym closeR_sym). Qed.
Print Assumptions C51_symmetric_partial.

(** C65: two values are close when they have the same shape and corresponding numbers
    are within the tolerance.  True of every type without a vector of pairs. *)
Definition nearR (x y : R) : Prop := (Rabs (x - y) <= (1 + Rabs x + Rabs y) * tolR)%R.

Theorem C65_leafwise_partial : forall s, no_vec_of_pair s -> forall v w,
  are_closeR s v w = true <-> leafwise nearR s v w.
Proof. exact (close_leafwise closeR eqR nearR closeR_spec). Qed.
Print Assumptions C65_leafwise_partial.

Theorem C65_leafwise64_partial : forall s, no_vec_of_pair s -> forall v w,
  are_close64 s v w = true <-> leafwise (fun x y => close64 x y = true) s v w.
Proof. exact (close_leafwise close64 SFeqb _ (fun a b => iff_refl _)). Qed.
Print Assumptions C65_leafwise64_partial.

(** A vector of pairs is compared with operator==: one pair with two close numbers. *)
Theorem C65_vector_of_pairs_refuted : exists v w : list (R * R),
  leafwise nearR (SVec (SPair SNum SNum)) v w /\
  are_closeR (SPair SNum SNum) (hd (0, 0)%R v) (hd (0, 0)%R w) = true /\
  are_closeR (SVec (SPair SNum SNum)) v w = false.
Proof.
  assert (nearR 1 1) as N1.
  { unfold nearR, tolR. replace (1 - 1)%R with 0%R by ring. rewrite Rabs_R0, Rabs_R1. lra. }
  assert (nearR 1 (11 / 10)) as N2.
  { unfold nearR, tolR. rewrite (Rabs_left (1 - 11 / 10)), Rabs_R1, (Rabs_right (11 / 10)) by lra. lra. }
  exists [(1, 1)%R], [(1, 11 / 10)%R]. split; [| split].
  - cbn. constructor; [split; assumption | constructor].
  - apply (close_leafwise closeR eqR nearR closeR_spec (SPair SNum SNum)); cbn; auto.
  - cbn. unfold eqR. destruct (Req_EM_T 1 (11 / 10)) as [E | _]; [lra |].
    destruct (Req_EM_T 1 1); reflexivity.
Qed.
Print Assumptions C65_vector_of_pairs_refuted.

Example C65_nonvacuous : no_vec_of_pair (SPair (SVec (SVec SNum)) (SVec SInt)) /\
  are_close64 (SPair (SVec (SVec SNum)) (SVec SInt)) ([[one64]; []], [3; 4]) ([[S754_finite false 4503599627370497 (-52)]; []], [3; 4]) = true.
Proof. split; [cbn; auto | vm_compute; reflexivity]. Qed.
