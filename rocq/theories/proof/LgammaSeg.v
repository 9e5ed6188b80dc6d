(** The rows of lgamma_approx_coeff5 against the log-gamma function, octave by octave. *)
From Coq Require Import List Reals Lra Lia ZArith Bool.
From Coquelicot Require Import Coquelicot.
From Flocq Require Import Core BinarySingleNaN Binary Bits.
From Verif.model Require Import Base Special FastLgamma.
From Verif.spec Require Import DrawSpec.
From Verif.proof Require Import PolyCheck LogPoly.
Import ListNotations.
Local Open Scope R_scope.

Definition coef (b : Z) : Z * Z :=
  match b32_of_bits b with B754_finite s m e _ => (cond_Zopp s (Zpos m), e) | _ => (0, 0)%Z end.
Definition cval (a : Z * Z) : R := IZR (fst a) * bpow radix2 (snd a).
Lemma coef_val b : cval (coef b) = B2R 24 128 (b32_of_bits b).
Proof. unfold cval, coef. destruct (b32_of_bits b) as [s|s|s p H|s m e H]; cbn [fst snd B2R F2R Fnum Fexp]; try (cbn; lra). reflexivity. Qed.

(** a polynomial in x, constant term first *)
Fixpoint hval (l : list (Z * Z)) (x : R) : R := match l with [] => 0 | a :: t => cval a + x * hval t x end.
Fixpoint hor (k : Z) (l : list (Z * Z)) : dp := match l with [] => dc 0 0 | a :: t => dadd (dc (fst a) (snd a)) (dmul (X k) (hor k t)) end.
Lemma dv_hor k l w : dv (hor k l) w = hval l (bpow radix2 k * (6 + w)).
Proof.
  induction l as [|a t IH]; cbn [hor hval]; [rewrite dv_c; ring |]. rewrite dv_add, dv_c, dv_mul, dv_X, IH. reflexivity.
Qed.
Definition cabs (a : Z * Z) : Z * Z := (Z.abs (fst a), snd a).
(** relative error e 2^-30 *)
Definition seg_ok (e k a b : Z) (l : list (Z * Z)) : bool :=
  let P := dmul (X7 k) (hor k l) in
  dnonneg a b (dsub (dmul (dadd (dc 1 0) (dc e (-30))) (lg_lo k)) P) &&
  dnonneg a b (dsub P (dmul (dsub (dc 1 0) (dc e (-30))) (lg_hi k))) &&
  dnonneg a b (dsub (dmul (dc 64 0) (lg_lo k)) (dmul (X7 k) (hor k (map cabs l)))) &&
  dnonneg a b (dsub (dc 1 100) (hor k (map cabs l))).
Lemma seg_sound lg e k a b l w : is_log_gamma lg -> seg_ok e k a b l = true -> (-2 <= a < b)%Z -> (b <= 2)%Z -> (0 <= e < 2 ^ 30)%Z ->
  IZR a <= w <= IZR b -> let x := bpow radix2 k * (6 + w) in 1 <= x ->
  Rabs (hval l x - lg x) <= IZR e * bpow radix2 (-30) * lg x /\
  hval (map cabs l) x <= 64 * lg x /\ hval (map cabs l) x <= bpow radix2 100.
Proof.
  intros HG H Ha Hb He Hw x Hx. unfold seg_ok in H. apply andb_prop in H as [H H4]. apply andb_prop in H as [H H3]. apply andb_prop in H as [H1 H2].
  assert (-2 <= w <= 2) as Hw2.
  { destruct Ha as [Ha _]. apply IZR_le in Ha. apply IZR_le in Hb. lra. }
  apply (dnonneg_ok _ _ _ w) in H1; [| lia | exact Hw]. apply (dnonneg_ok _ _ _ w) in H2; [| lia | exact Hw].
  apply (dnonneg_ok _ _ _ w) in H3; [| lia | exact Hw].
  apply (dnonneg_ok _ _ _ w) in H4; [| lia | exact Hw]. rewrite dv_sub, dv_c, dv_hor in H4. fold x in H4.
  pose proof (lg_enc lg HG k w Hw2 Hx) as [A B]. fold x in A, B.
  set (lo := lg_lo k) in *. set (hi := lg_hi k) in *.
  assert (dv (X7 k) w = 5040 * x ^ 7) as E7.
  { unfold X7. rewrite dv_mul, dv_c, dv_pow, dv_X. change (bpow radix2 0) with 1. fold x. ring. }
  rewrite ?dv_sub, ?dv_mul, ?dv_add, ?dv_sub, ?dv_c, ?dv_hor, ?E7 in H1.
  rewrite ?dv_sub, ?dv_mul, ?dv_sub, ?dv_c, ?dv_hor, ?E7 in H2.
  rewrite ?dv_sub, ?dv_mul, ?dv_c, ?dv_hor, ?E7 in H3.
  fold x in H1, H2, H3. change (bpow radix2 0) with 1 in H1, H2, H3.
  set (d := IZR e * bpow radix2 (-30)) in *. set (P := hval l x) in *.
  assert (0 <= d <= 1) as Hd.
  { unfold d. destruct He as [He1 He2]. apply IZR_le in He1. apply IZR_lt in He2. cbn in He2 |- *. lra. }
  set (N := 5040 * x ^ 7) in *. assert (0 < N) as HN by (unfold N; pose proof (pow_lt x 7 ltac:(lra)); lra).
  assert (N * P <= N * ((1 + d) * lg x)) as U.
  { apply Rle_trans with ((1 + d) * dv lo w); [lra |]. replace (N * ((1 + d) * lg x)) with ((1 + d) * (N * lg x)) by ring. apply Rmult_le_compat_l; lra. }
  assert (N * ((1 - d) * lg x) <= N * P) as L.
  { apply Rle_trans with ((1 - d) * dv hi w); [| lra]. replace (N * ((1 - d) * lg x)) with ((1 - d) * (N * lg x)) by ring. apply Rmult_le_compat_l; lra. }
  apply Rmult_le_reg_l in U; [| exact HN]. apply Rmult_le_reg_l in L; [| exact HN].
  split; [apply Rabs_le; lra |]. split; [| lra]. apply Rmult_le_reg_l with N; [exact HN |]. lra.
Qed.

(** the six bit patterns of row c, constant term first *)
Definition row_bits (c : Z) : list Z :=
  match zget lgamma_coeff_bits (c * 6), zget lgamma_coeff_bits (c * 6 + 1), zget lgamma_coeff_bits (c * 6 + 2),
        zget lgamma_coeff_bits (c * 6 + 3), zget lgamma_coeff_bits (c * 6 + 4), zget lgamma_coeff_bits (c * 6 + 5) with
  | Ok b5, Ok b4, Ok b3, Ok b2, Ok b1, Ok b0 => [b0; b1; b2; b3; b4; b5]
  | _, _, _, _, _, _ => []
  end.
Definition eps (c : Z) : Z := (if c =? 1 then 40802 else if c =? 2 then 21475 else if c =? 3 then 7517 else 4295)%Z.
Definition lead (a : Z * Z) : Z := (Z.log2 (Z.abs (fst a)) + snd a)%Z.
Definition seg_all (c : Z) : bool :=
  let r := map coef (row_bits c) in
  (length r =? 6)%nat && seg_ok (eps c) (c - 2) (if c =? 1 then -1 else -2)%Z 2 r &&
  forallb (fun b => is_finite 24 128 (b32_of_bits b)) (row_bits c) &&
  match r with a :: _ => (-4 <=? lead a)%Z && negb (fst a =? 0)%Z | _ => false end &&
  ((30 <=? c)%Z || forallb (fun a => 8388608 <=? Z.abs (fst a))%Z r).
Definition all_segs : bool := forallb (fun n => seg_all (Z.of_nat n)) (seq 1 31).
Lemma segs : all_segs = true.
Proof. vm_compute. reflexivity. Qed.
Lemma seg_all_ok c : (1 <= c <= 31)%Z -> seg_all c = true.
Proof.
  intros H. pose proof segs as A. unfold all_segs in A. rewrite forallb_forall in A.
  rewrite <- (Z2Nat.id c) by lia. apply A. apply in_seq. lia.
Qed.
Lemma lead_le a : fst a <> 0%Z -> bpow radix2 (lead a) <= Rabs (cval a).
Proof.
  intros H. unfold cval, lead. rewrite Rabs_mult, (Rabs_pos_eq (bpow _ _)) by apply bpow_ge_0. rewrite bpow_plus.
  apply Rmult_le_compat_r; [apply bpow_ge_0 |]. rewrite <- abs_IZR. 
  destruct (Z.log2_spec (Z.abs (fst a)) ltac:(lia)) as [L _]. apply IZR_le in L.
  rewrite (IZR_Zpower radix2) in L by apply Z.log2_nonneg. exact L.
Qed.
Lemma cabs_val a : cval (cabs a) = Rabs (cval a).
Proof. unfold cval, cabs. cbn [fst snd]. now rewrite abs_IZR, Rabs_mult, (Rabs_pos_eq (bpow _ _)) by apply bpow_ge_0. Qed.
