(** The rows of lgamma_nu_func_approx_coeff3 against lg (nu/2 + 1/2) - lg (nu/2). *)
From Coq Require Import List Reals Lra Lia ZArith Bool.
From Coquelicot Require Import Coquelicot.
From Flocq Require Import Core BinarySingleNaN Binary Bits.
From Verif.model Require Import Base Special FastLgamma.
From Verif.spec Require Import DrawSpec.
From Verif.proof Require Import LgammaBound PolyCheck LogPoly LgammaSeg.
Import ListNotations.
Local Open Scope R_scope.

Fixpoint dsubst (p : list Z) (c : dp) : dp := match p with [] => dc 0 0 | a :: t => dadd (dc a 0) (dmul c (dsubst t c)) end.
Lemma dv_subst p c w : dv (dsubst p c) w = peval p (dv c w).
Proof.
  induction p as [|a t IH]; cbn [dsubst peval]; [rewrite dv_c; ring |]. rewrite dv_add, dv_c, dv_mul, IH. change (bpow radix2 0) with 1. ring.
Qed.

(** sums of logarithms: (s, a, j) stands for (s/2) ln (h + a/2), where h + a/2 lies in [4, 8] 2^j *)
Definition item : Type := (Z * Z * Z)%type.
Definition arg (k a : Z) : dp := dadd (X k) (dc a (-1)).
Definition pos (k a j : Z) : dp := dsub (dmul (dc 1 (- j)) (arg k a)) (dc 6 0).
Definition lnat (k a j : Z) : dp := (fun p : dp => dmul (dc 1 (snd p)) (dsubst (fst p) (pos k a j))) (lnx j).
Fixpoint logs (k : Z) (l : list item) : dp :=
  match l with [] => dc 0 0 | (s, a, j) :: t => dadd (dmul (dc s (-1)) (lnat k a j)) (logs k t) end.
Fixpoint lerr (l : list item) : Z := match l with [] => 0 | (s, _, j) :: t => Z.abs s * err j + lerr t end%Z.
Fixpoint lval (l : list item) (h : R) : R := match l with [] => 0 | (s, a, _) :: t => IZR s / 2 * ln (h + IZR a / 2) + lval t h end.
Definition within (k lo hi : Z) (l : list item) : bool :=
  forallb (fun it : item => let '(_, a, j) := it in dnonneg lo hi (dsub (dc 2 0) (pos k a j)) && dnonneg lo hi (dadd (dc 2 0) (pos k a j))) l.

Lemma dv_arg k a w : dv (arg k a) w = bpow radix2 k * (6 + w) + IZR a / 2.
Proof. unfold arg. rewrite dv_add, dv_X, dv_c. reflexivity. Qed.
Lemma dv_pos k a j w : bpow radix2 j * (6 + dv (pos k a j) w) = bpow radix2 k * (6 + w) + IZR a / 2.
Proof.
  unfold pos. rewrite dv_sub, dv_mul, !dv_c, dv_arg. change (bpow radix2 0) with 1.
  set (z := bpow radix2 k * (6 + w) + IZR a / 2).
  replace (bpow radix2 j * (6 + (1 * bpow radix2 (- j) * z - 6 * 1))) with (z * (bpow radix2 j * bpow radix2 (- j))) by ring.
  rewrite <- bpow_plus. replace (j + - j)%Z with 0%Z by lia. cbn [bpow]. ring.
Qed.
Lemma logs_ok k l lo hi w : within k lo hi l = true -> (lo < hi)%Z -> IZR lo <= w <= IZR hi ->
  Rabs (lval l (bpow radix2 k * (6 + w)) - dv (logs k l) w) <= IZR (lerr l) * bpow radix2 (-27).
Proof.
  intros H Hlh Hw. induction l as [|[[s a] j] t IH]; cbn [lval logs lerr].
  - rewrite dv_c, Rmult_0_l, Rminus_0_r, Rabs_R0. lra.
  - cbn [within forallb] in H. apply andb_prop in H as [H Ht]. apply andb_prop in H as [H1 H2]. specialize (IH Ht).
    apply (dnonneg_ok _ _ _ w) in H1; [| exact Hlh | exact Hw]. apply (dnonneg_ok _ _ _ w) in H2; [| exact Hlh | exact Hw].
    rewrite dv_sub, dv_c in H1. rewrite dv_add, dv_c in H2. change (bpow radix2 0) with 1 in H1, H2.
    set (p := dv (pos k a j) w) in *. pose proof (lnx_enc j p ltac:(lra)) as E. unfold p in E at 1. rewrite dv_pos in E.
    rewrite dv_add, dv_mul, dv_c. unfold lnat. rewrite dv_mul, dv_c, dv_subst. fold p.
    replace (1 * bpow radix2 (snd (lnx j)) * peval (fst (lnx j)) p) with (dv (lnx j) p) by (unfold dv; ring).
    set (h := bpow radix2 k * (6 + w)) in *. rewrite plus_IZR, mult_IZR, abs_IZR.
    replace (IZR s * bpow radix2 (-1)) with (IZR s / 2) by (cbn; lra).
    replace (IZR s / 2 * ln (h + IZR a / 2) + lval t h - (IZR s / 2 * dv (lnx j) p + dv (logs k t) w))
      with (IZR s / 2 * (ln (h + IZR a / 2) - dv (lnx j) p) + (lval t h - dv (logs k t) w)) by ring.
    eapply Rle_trans; [apply Rabs_triang |]. rewrite Rmult_plus_distr_r. apply Rplus_le_compat; [| exact IH].
    unfold Rdiv. rewrite !Rabs_mult, (Rabs_pos_eq (/ 2)) by lra.
    apply Rle_trans with (Rabs (IZR s) * / 2 * (IZR (err j) * ulp)).
    + apply Rmult_le_compat_l; [| exact E]. apply Rmult_le_pos; [apply Rabs_pos | lra].
    + right. change (-26)%Z with (1 + -27)%Z. rewrite bpow_plus. change (bpow radix2 1) with 2. field.
Qed.

(** a row on one piece of an octave: h = 2^k (6 + w), lo <= w <= hi; b/2 is the lift (0 or 2) *)
Definition N5 (k b : Z) : dp := dmul (dc 1920 0) (dpow (arg k b) 5).
Definition v5 (k b : Z) : dp := dsub (dmul (dc 10 0) (dpow (arg k b) 2)) (dmul (dc 240 0) (dpow (arg k b) 4)).
Definition nu_ok (tol k lo hi b : Z) (l : list item) (cs : list (Z * Z)) : bool :=
  let P := hor (k + 1) cs in
  let er := dc (lerr l) (-27) in
  within k lo hi l &&
  dnonneg lo hi (dsub (dsub (dmul (N5 k b) (dadd P (dc tol (-20)))) (dmul (N5 k b) (dadd (logs k l) er))) (v5 k b)) &&
  dnonneg lo hi (dsub (dadd (dmul (N5 k b) (dsub (logs k l) er)) (dsub (v5 k b) (dc 3 0))) (dmul (N5 k b) (dsub P (dc tol (-20))))) &&
  dnonneg lo hi (dsub (dc 128 0) (hor (k + 1) (map cabs cs))).
Lemma nu_sound tol k lo hi b l cs w D : nu_ok tol k lo hi b l cs = true -> (lo < hi)%Z -> IZR lo <= w <= IZR hi ->
  let h := bpow radix2 k * (6 + w) in let y := h + IZR b / 2 in 0 < y ->
  lval l h + V_lo y <= D <= lval l h + V_hi y ->
  Rabs (hval cs (2 * h) - D) <= IZR tol * bpow radix2 (-20) /\ hval (map cabs cs) (2 * h) <= 128.
Proof.
  intros H Hlh Hw h y Hy HD. unfold nu_ok in H. apply andb_prop in H as [H H4]. apply andb_prop in H as [H H3]. apply andb_prop in H as [H1 H2].
  pose proof (logs_ok k l lo hi w H1 Hlh Hw) as E. fold h in E.
  apply (dnonneg_ok _ _ _ w) in H2; [| exact Hlh | exact Hw]. apply (dnonneg_ok _ _ _ w) in H3; [| exact Hlh | exact Hw].
  apply (dnonneg_ok _ _ _ w) in H4; [| exact Hlh | exact Hw].
  assert (bpow radix2 (k + 1) * (6 + w) = 2 * h) as E2 by (unfold h; rewrite bpow_plus; change (bpow radix2 1) with 2; ring).
  assert (dv (N5 k b) w = 1920 * y ^ 5) as EN by (unfold N5; rewrite dv_mul, dv_c, dv_pow, dv_arg; change (bpow radix2 0) with 1; unfold y, h; ring).
  assert (dv (v5 k b) w = 10 * y ^ 2 - 240 * y ^ 4) as EV.
  { unfold v5. rewrite dv_sub, !dv_mul, !dv_c, !dv_pow, dv_arg. change (bpow radix2 0) with 1. unfold y, h. ring. }
  set (L := logs k l) in *. set (P := hor (k + 1) cs) in *.
  assert (dv P w = hval cs (2 * h)) as EP by (unfold P; rewrite dv_hor, E2; reflexivity).
  rewrite ?dv_sub, ?dv_mul, ?dv_add, ?dv_sub, ?dv_c, EN, EV, EP in H2.
  rewrite ?dv_sub, ?dv_add, ?dv_mul, ?dv_sub, ?dv_c, EN, EV, EP in H3.
  rewrite dv_sub, dv_c, dv_hor, E2 in H4. change (bpow radix2 0) with 1 in H2, H3, H4.
  set (p := hval cs (2 * h)) in *. set (t := IZR tol * bpow radix2 (-20)) in *. set (er := IZR (lerr l) * bpow radix2 (-27)) in *.
  set (N := 1920 * y ^ 5) in *. assert (0 < N) as HN by (unfold N; pose proof (pow_lt y 5 Hy); lra).
  assert (10 * y ^ 2 - 240 * y ^ 4 = N * V_hi y) as Q1 by (unfold N, V_hi; field; lra).
  assert (10 * y ^ 2 - 240 * y ^ 4 - 3 = N * V_lo y) as Q2 by (unfold N, V_lo, V_hi; field; lra).
  rewrite Q1 in H2. apply Rabs_le_between in E.
  split; [| lra].
  assert (0 <= N * (p + t - (dv L w + er) - V_hi y)) as G1 by lra.
  assert (0 <= N * (dv L w - er + V_lo y - (p - t))) as G2 by lra.
  assert (forall z, 0 <= N * z -> 0 <= z) as KN by (intros z Hz; apply Rmult_le_reg_l with N; [exact HN | lra]).
  apply KN in G1, G2. apply Rabs_le. lra.
Qed.

Definition row4 (j : Z) : list Z :=
  match zget lgamma_nu_coeff_bits (j * 4), zget lgamma_nu_coeff_bits (j * 4 + 1), zget lgamma_nu_coeff_bits (j * 4 + 2),
        zget lgamma_nu_coeff_bits (j * 4 + 3) with
  | Ok b3, Ok b2, Ok b1, Ok b0 => [b0; b1; b2; b3]
  | _, _, _, _ => []
  end.
Definition tol : Z := 16358.
(** octave c: h = nu/2 = 2^(c-3) (6 + w) *)
Definition items (c : Z) (part : bool) : list item :=
  let k := (c - 3)%Z in
  if (2 <=? c)%Z then [(1, 0, k)]%Z
  else
    [(1, 4, -1); (2, 0, k); (2, 2, if c =? 1 then -1 else -2); (-2, 1, if c =? 1 then (if part then -1 else -2) else if c =? 0 then -2 else -3);
     (-2, 3, if c =? 1 then -1 else if c =? 0 then -1 else -2)]%Z.
Definition nu_oct (c : Z) : bool :=
  let cs := row4 (Z.quot (c + 4) 2) in
  let r := map coef cs in
  let b := (if 2 <=? c then 0 else 4)%Z in
  (length r =? 4)%nat && forallb (fun b => is_finite 24 128 (b32_of_bits b)) cs &&
  forallb (fun ia : Z * (Z * Z) => (fst (snd ia) =? 0)%Z || (-124 <=? lead (snd ia) + fst ia * c)%Z) (combine [0; 1; 2; 3]%Z r) &&
  nu_ok tol (c - 3) (-2) 0 b (items c false) r && nu_ok tol (c - 3) 0 2 b (items c true) r.
Lemma nu_octs : forallb (fun n => nu_oct (Z.of_nat n - 4)) (seq 0 36) = true.
Proof. vm_compute. reflexivity. Qed.
Lemma nu_oct_ok c : (-4 <= c <= 31)%Z -> nu_oct c = true.
Proof.
  intros H. pose proof nu_octs as A. rewrite forallb_forall in A.
  replace c with (Z.of_nat (Z.to_nat (c + 4)) - 4)%Z by lia. apply A. apply in_seq. lia.
Qed.

Section Nu.
  Variable lg : R -> R.
  Hypothesis HG : is_log_gamma lg.
  Lemma D_enc c part h : (-4 <= c <= 31)%Z -> 0 < h -> let y := h + IZR (if 2 <=? c then 0 else 4)%Z / 2 in
    lval (items c part) h + V_lo y <= lg (h + / 2) - lg h <= lval (items c part) h + V_hi y.
  Proof using HG.
    intros Hc Hh y. unfold items. pose proof (half_step lg HG y) as S. unfold e in S. unfold y in *. clear y.
    destruct (Z.leb_spec 2 c).
    - cbn [lval]. replace (h + 0 / 2) with h in * by lra. specialize (S Hh). lra.
    - cbn [lval]. replace (h + 4 / 2) with (h + 2) in * by lra. replace (h + 0 / 2) with h by lra. replace (h + 2 / 2) with (h + 1) by lra.
      replace (h + 1 / 2) with (h + / 2) by lra. replace (h + 3 / 2) with (h + / 2 + 1) by lra. specialize (S ltac:(lra)).
      replace (h + 2 + / 2) with (h + / 2 + 1 + 1) in S by ring.
      assert (lg (h + 2) = lg h + ln h + ln (h + 1)) as E.
      { replace (h + 2) with (h + 1 + 1) by ring. rewrite !(lg_rec lg HG) by lra. ring. }
      rewrite !(lg_rec lg HG (h + / 2 + 1)), !(lg_rec lg HG (h + / 2)), E in S by lra. lra.
  Qed.
  (** the row of octave c at x = nu *)
  Lemma nu_row c x : (-4 <= c <= 31)%Z -> bpow radix2 c <= x <= bpow radix2 (c + 1) ->
    let r := map coef (row4 (Z.quot (c + 4) 2)) in
    Rabs (hval r x - (lg (x / 2 + / 2) - lg (x / 2))) <= IZR tol * bpow radix2 (-20) /\ hval (map cabs r) x <= 128.
  Proof using HG.
    intros Hc Hx r. pose proof (nu_oct_ok c Hc) as O. unfold nu_oct in O. cbv zeta in O. fold r in O.
    apply andb_prop in O as [O O2]. apply andb_prop in O as [_ O1].
    set (k := (c - 3)%Z) in *. set (w := x / 2 * bpow radix2 (- k) - 6).
    assert (bpow radix2 k * (6 + w) = x / 2) as Ew.
    { unfold w. replace (6 + (x / 2 * bpow radix2 (- k) - 6)) with (x / 2 * bpow radix2 (- k)) by ring.
      replace (bpow radix2 k * (x / 2 * bpow radix2 (- k))) with (x / 2 * (bpow radix2 k * bpow radix2 (- k))) by ring.
      rewrite <- bpow_plus. replace (k + - k)%Z with 0%Z by lia. cbn [bpow]. ring. }
    assert (-2 <= w <= 2) as Hw.
    { pose proof (bpow_gt_0 radix2 (- k)) as Q0.
      assert (bpow radix2 c * bpow radix2 (- k) = 8) as Q1 by (rewrite <- bpow_plus; replace (c + - k)%Z with 3%Z by lia; reflexivity).
      assert (bpow radix2 (c + 1) * bpow radix2 (- k) = 16) as Q2 by (rewrite <- bpow_plus; replace (c + 1 + - k)%Z with 4%Z by lia; reflexivity).
      assert (bpow radix2 c * bpow radix2 (- k) <= x * bpow radix2 (- k)) by (apply Rmult_le_compat_r; lra).
      assert (x * bpow radix2 (- k) <= bpow radix2 (c + 1) * bpow radix2 (- k)) by (apply Rmult_le_compat_r; lra). unfold w. lra. }
    assert (0 < x / 2) as Hh by (pose proof (bpow_gt_0 radix2 c); lra).
    assert (0 < x / 2 + IZR (if 2 <=? c then 0 else 4)%Z / 2) as Hy by (destruct (2 <=? c)%Z; lra).
    destruct (Rle_or_lt w 0) as [L | L].
    - pose proof (nu_sound tol k (-2) 0 _ (items c false) r w (lg (x / 2 + / 2) - lg (x / 2)) O1 ltac:(lia) ltac:(lra)) as S. cbv zeta in S.
      rewrite Ew in S. replace (2 * (x / 2)) with x in S by field. exact (S Hy (D_enc c false (x / 2) Hc Hh)).
    - pose proof (nu_sound tol k 0 2 _ (items c true) r w (lg (x / 2 + / 2) - lg (x / 2)) O2 ltac:(lia) ltac:(lra)) as S. cbv zeta in S.
      rewrite Ew in S. replace (2 * (x / 2)) with x in S by field. exact (S Hy (D_enc c true (x / 2) Hc Hh)).
  Qed.
End Nu.
