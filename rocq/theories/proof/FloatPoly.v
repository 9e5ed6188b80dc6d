(** Rounding errors of sums of products, for any IEEE format. *)
From Coq Require Import Reals Lra Lia ZArith Bool.
From Flocq Require Import Core Relative Plus_error BinarySingleNaN Binary.
Local Open Scope R_scope.

Section Rel.
  Variables prec emax : Z.
  Hypothesis Hprec : (0 < prec)%Z.
  Hypothesis Hemax : (prec < emax)%Z.
  Hypothesis Hbig : (20 <= prec)%Z.
  Let fexp := SpecFloat.fexp prec emax.
  Let rnd := round radix2 fexp ZnearestE.
  Let u := bpow radix2 (- prec).
  Variable nan : binary_float prec emax -> binary_float prec emax -> { x : binary_float prec emax | is_nan prec emax x = true }.
  Let mul := Bmult prec emax Hprec Hemax nan mode_NE.
  Let add := Bplus prec emax Hprec Hemax nan mode_NE.
  Let fin := is_finite prec emax.
  Let b2r := B2R prec emax.

  Lemma u_pos : 0 < u.
  Proof using All. apply bpow_gt_0. Qed.
  Lemma u_small : u <= / 1048576.
  Proof using All. unfold u. change (/ 1048576) with (bpow radix2 (-20)). apply bpow_le. lia. Qed.
  Lemma half_u : / 2 * bpow radix2 (- prec + 1) = u.
  Proof using All. unfold u. rewrite bpow_plus. cbn. field. Qed.
  Local Instance P1 : Prec_gt_0 prec := Hprec.
  Local Instance P2 : Valid_exp fexp.
  Proof using All. apply FLT_exp_valid. exact Hprec. Qed.
  Lemma rnd_rel z : z = 0 \/ bpow radix2 (2 - emax) <= Rabs z -> Rabs (rnd z - z) <= u * Rabs z.
  Proof using All.
    intros [-> | H].
    - unfold rnd. rewrite round_0 by apply valid_rnd_N. rewrite Rminus_0_r, Rabs_R0. lra.
    - rewrite <- half_u. apply (relative_error_N_FLT radix2 (3 - emax - prec) prec Hprec).
      replace (3 - emax - prec + prec - 1)%Z with (2 - emax)%Z by lia. exact H.
  Qed.
  Lemma rnd_plus x y : Rabs (rnd (b2r x + b2r y) - (b2r x + b2r y)) <= u * Rabs (b2r x + b2r y).
  Proof using All.
    assert (F : forall z, generic_format radix2 (FLT_exp (3 - emax - prec) prec) (b2r z)) by (intros z; apply (generic_format_B2R prec emax z)).
    destruct (FLT_plus_error_N_ex radix2 (3 - emax - prec) prec (fun t => negb (Z.even t)) (b2r x) (b2r y) (F x) (F y)) as (e & He & E).
    unfold rnd, fexp. change (SpecFloat.fexp prec emax) with (FLT_exp (3 - emax - prec) prec).
    match goal with |- Rabs (?r - _) <= _ => replace r with ((b2r x + b2r y) * (1 + e)) by (symmetry; exact E) end.
    replace ((b2r x + b2r y) * (1 + e) - (b2r x + b2r y)) with (e * (b2r x + b2r y)) by ring. rewrite Rabs_mult.
    apply Rmult_le_compat_r; [apply Rabs_pos |]. eapply Rle_trans; [exact He |].
    assert (u_ro radix2 prec = u) as -> by (unfold u_ro; apply half_u).
    pose proof u_pos. apply Rle_trans with (u / 1); [| lra]. unfold Rdiv. apply Rmult_le_compat_l; [lra |]. apply Rinv_le_contravar; lra.
  Qed.
  Lemma rnd_below z : Rabs z <= bpow radix2 (emax - 1) -> Rlt_bool (Rabs (rnd z)) (bpow radix2 emax) = true.
  Proof using All.
    intros H. apply Rlt_bool_true. apply Rle_lt_trans with (bpow radix2 (emax - 1)); [| apply bpow_lt; lia].
    unfold rnd. apply abs_round_le_generic; [exact P2 | apply valid_rnd_N | | exact H].
    apply (generic_format_FLT_bpow radix2 (3 - emax - prec) prec); lia.
  Qed.

  Definition rel (k p q : R) : Prop := Rabs (p - q) <= k * u * Rabs q.
  Lemma rel_0 p : rel 0 p p.
  Proof using. unfold rel. rewrite Rminus_eq_0, Rabs_R0. lra. Qed.

  Lemma mul_rel x y qa qb j k : fin x = true -> fin y = true -> rel j (b2r x) qa -> rel k (b2r y) qb -> 0 <= j <= 10 -> 0 <= k <= 10 ->
    qa * qb = 0 \/ bpow radix2 (3 - emax) <= Rabs (qa * qb) -> Rabs (qa * qb) <= bpow radix2 (emax - 2) ->
    fin (mul x y) = true /\ rel (j + k + 2) (b2r (mul x y)) (qa * qb).
  Proof using All.
    intros Fx Fy Rx Ry Hj Hk Lo Hi. set (z := b2r x * b2r y). set (m := qa * qb) in *.
    pose proof u_pos as U0. pose proof u_small as U1.
    assert (Rabs (z - m) <= (j + k + / 1000) * u * Rabs m) as Ez.
    { unfold z, m. replace (b2r x * b2r y - qa * qb) with ((b2r x - qa) * qb + qa * (b2r y - qb) + (b2r x - qa) * (b2r y - qb)) by ring.
      unfold rel in Rx, Ry. rewrite (Rabs_mult qa qb). pose proof (Rabs_pos qa) as A0. pose proof (Rabs_pos qb) as B0.
      eapply Rle_trans; [apply Rabs_triang |]. eapply Rle_trans; [apply Rplus_le_compat_r, Rabs_triang |]. rewrite !Rabs_mult.
      assert (Rabs (b2r x - qa) * Rabs qb <= j * u * Rabs qa * Rabs qb) by (apply Rmult_le_compat_r; lra).
      assert (Rabs qa * Rabs (b2r y - qb) <= Rabs qa * (k * u * Rabs qb)) by (apply Rmult_le_compat_l; lra).
      assert (Rabs (b2r x - qa) * Rabs (b2r y - qb) <= (j * u * Rabs qa) * (k * u * Rabs qb)) by (apply Rmult_le_compat; try apply Rabs_pos; lra).
      assert (j * u * Rabs qa * (k * u * Rabs qb) <= / 1000 * u * (Rabs qa * Rabs qb)).
      { replace (j * u * Rabs qa * (k * u * Rabs qb)) with ((j * k * u) * u * (Rabs qa * Rabs qb)) by ring.
        apply Rmult_le_compat_r; [now apply Rmult_le_pos |]. apply Rmult_le_compat_r; [lra |].
        assert (j * k <= 10 * 10) by (apply Rmult_le_compat; lra). apply Rle_trans with (100 * u); [apply Rmult_le_compat_r; lra | lra]. }
      lra. }
    assert ((j + k + / 1000) * u <= / 1000) as W by (apply Rle_trans with (21 * u); [apply Rmult_le_compat_r; lra | lra]).
    pose proof (Rabs_pos m) as M0.
    assert ((j + k + / 1000) * u * Rabs m <= / 1000 * Rabs m) as W' by (apply Rmult_le_compat_r; lra).
    assert (Rabs z <= (1 + / 1000) * Rabs m) as Z1.
    { replace z with (m + (z - m)) by ring. eapply Rle_trans; [apply Rabs_triang |]. lra. }
    assert ((1 - / 1000) * Rabs m <= Rabs z) as Z2.
    { pose proof (Rabs_triang z (m - z)) as T. replace (z + (m - z)) with m in T by ring. rewrite Rabs_minus_sym in T. lra. }
    assert (z = 0 \/ bpow radix2 (2 - emax) <= Rabs z) as Cz.
    { destruct Lo as [L | L].
      - left. rewrite L, Rabs_R0 in Z1. destruct (Req_dec z 0) as [E | N]; [exact E |]. pose proof (Rabs_pos_lt z N). lra.
      - right. replace (3 - emax)%Z with (2 - emax + 1)%Z in L by lia. rewrite bpow_plus in L. pose proof (bpow_gt_0 radix2 (2 - emax)).
        change (bpow radix2 1) with 2 in L. lra. }
    assert (Rabs z <= bpow radix2 (emax - 1)) as Bz.
    { replace (emax - 1)%Z with (emax - 2 + 1)%Z by lia. rewrite bpow_plus. change (bpow radix2 1) with 2. lra. }
    pose proof (Bmult_correct prec emax Hprec Hemax nan mode_NE x y) as C.
    change (round_mode mode_NE) with ZnearestE in C. fold fexp in C. change (round radix2 fexp ZnearestE) with rnd in C.
    fold b2r in C. fold z in C. rewrite (rnd_below z Bz) in C. destruct C as (C1 & C2 & _). fold mul fin in C1, C2.
    rewrite Fx, Fy in C2. split; [exact C2 |]. unfold rel. rewrite C1.
    pose proof (rnd_rel z Cz) as E. replace (rnd z - m) with ((rnd z - z) + (z - m)) by ring.
    eapply Rle_trans; [apply Rabs_triang |].
    assert (u * Rabs z <= u * ((1 + / 1000) * Rabs m)) by (apply Rmult_le_compat_l; lra).
    assert (0 <= u * Rabs m) by (apply Rmult_le_pos; lra).
    replace ((j + k + 2) * u * Rabs m) with ((j + k + / 1000) * u * Rabs m + (2 - / 1000) * (u * Rabs m)) by ring. lra.
  Qed.
  Lemma add_err x y qa qb A e : fin x = true -> fin y = true -> Rabs (b2r x - qa) <= e * u * A -> rel e (b2r y) qb -> Rabs qa <= A -> 0 <= e <= 12 ->
    A + Rabs qb <= bpow radix2 (emax - 2) ->
    fin (add x y) = true /\ Rabs (b2r (add x y) - (qa + qb)) <= (e + 2) * u * (A + Rabs qb).
  Proof using All.
    intros Fx Fy Rx Ry HA He Hi. set (z := b2r x + b2r y). unfold rel in Ry. pose proof u_pos as U0. pose proof u_small as U1.
    pose proof (Rabs_pos qa). pose proof (Rabs_pos qb). set (B := A + Rabs qb) in *.
    assert (Rabs (z - (qa + qb)) <= e * u * B) as Ez.
    { unfold z, B. replace (b2r x + b2r y - (qa + qb)) with ((b2r x - qa) + (b2r y - qb)) by ring. eapply Rle_trans; [apply Rabs_triang |]. lra. }
    assert (e * u * B <= / 1000 * B) as W.
    { apply Rmult_le_compat_r; [unfold B; lra |]. apply Rle_trans with (12 * u); [apply Rmult_le_compat_r; lra | lra]. }
    assert (Rabs z <= (1 + / 1000) * B) as Z1.
    { replace z with ((qa + qb) + (z - (qa + qb))) by ring. eapply Rle_trans; [apply Rabs_triang |]. pose proof (Rabs_triang qa qb). unfold B in *. lra. }
    assert (Rabs z <= bpow radix2 (emax - 1)) as Bz.
    { replace (emax - 1)%Z with (emax - 2 + 1)%Z by lia. rewrite bpow_plus. change (bpow radix2 1) with 2. unfold B in *. lra. }
    pose proof (Bplus_correct prec emax Hprec Hemax nan mode_NE x y Fx Fy) as C.
    change (round_mode mode_NE) with ZnearestE in C. fold fexp in C. change (round radix2 fexp ZnearestE) with rnd in C.
    fold b2r in C. fold z in C. rewrite (rnd_below z Bz) in C. destruct C as (C1 & C2 & _). fold add fin in C1, C2.
    split; [exact C2 |]. rewrite C1. pose proof (rnd_plus x y) as E. fold z in E.
    replace (rnd z - (qa + qb)) with ((rnd z - z) + (z - (qa + qb))) by ring. eapply Rle_trans; [apply Rabs_triang |].
    assert (u * Rabs z <= u * (2 * B)) by (apply Rmult_le_compat_l; unfold B in *; lra). lra.
  Qed.
End Rel.
