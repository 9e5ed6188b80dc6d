(** The posterior variance of NormalInverseChiSq in single precision. *)
From Coq Require Import Reals Lra Lia Psatz List.
From Flocq Require Import Core BinarySingleNaN Binary Bits.
From Verif.model Require Import Base Num FastExp FloatNum Component HistoryRun NICH.
From Verif.spec Require Import FlavorSpec GaussSpec.
From Verif.proof Require Import BaseProof NICHProof FastExpProof FlavorProof FloatScoresProof FloatNichProof FloatNichAccuracy.
Import ListNotations.
Local Open Scope R_scope.

Lemma rnd_bpow k : (-149 <= k <= 127)%Z -> rnd (bpow radix2 k) = bpow radix2 k.
Proof.
  intros H. unfold rnd. apply round_generic; [apply valid_rnd_N |]. apply generic_format_bpow.
  change (SpecFloat.fexp 24 128) with (FLT_exp (-149) 24). unfold FLT_exp. lia.
Qed.
Lemma rnd_ge k x : (-149 <= k <= 127)%Z -> bpow radix2 k <= x -> bpow radix2 k <= rnd x.
Proof. intros H Hx. rewrite <- (rnd_bpow k H). now apply rnd_le. Qed.
Lemma rnd_upto k x : (-149 <= k <= 127)%Z -> x <= bpow radix2 k -> rnd x <= bpow radix2 k.
Proof. intros H Hx. rewrite <- (rnd_bpow k H). now apply rnd_le. Qed.
Lemma rnd_abs k x : (-149 <= k <= 127)%Z -> Rabs x <= bpow radix2 k -> Rabs (rnd x) <= bpow radix2 k.
Proof.
  intros H Hx. apply Rabs_le_inv in Hx. apply Rabs_le. split; [| apply rnd_upto; [exact H | lra]].
  rewrite <- (rnd_bpow k H), <- rnd_opp. apply rnd_le. lra.
Qed.
Lemma bp k l : (k <= l)%Z -> bpow radix2 k <= bpow radix2 l.
Proof. apply bpow_le. Qed.
Lemma bp2 k : bpow radix2 k + bpow radix2 k = bpow radix2 (k + 1).
Proof. rewrite bpow_plus. cbn. lra. Qed.
Lemma mul_abs k l x y : Rabs x <= bpow radix2 k -> Rabs y <= bpow radix2 l -> Rabs (x * y) <= bpow radix2 (k + l).
Proof. intros H1 H2. rewrite Rabs_mult, bpow_plus. apply Rmult_le_compat; try apply Rabs_pos; assumption. Qed.

Section P.
  Variables (tbl : list Z) (lit : Z -> Z -> binary32) (lg lgam lgam_nu : binary32 -> binary32)
    (lfact : Z -> binary32) (sq : binary32 -> binary32) (pw : binary32 -> binary32 -> binary32).
  Hypothesis lit1 : lit 1 1 = float_of_int 1.
  Let NN : Num binary32 := N32 tbl lit lg lgam lgam_nu lfact sq pw.
  #[local] Hint Extern 0 (Num binary32) => exact NN : typeclass_instances.
  Variables (sh : nich_shared binary32) (g : nich_group binary32).

  Lemma one_val : b2r (float_of_int 1) = 1 /\ fin (float_of_int 1) = true.
  Proof. apply (int_ok 1 eq_refl). Qed.

  (** whatever the size: never negative *)
  Lemma post_nonneg : (0 <= ni_count g < 2147483648)%Z -> 0 <= b2r (ni_ctv g) ->
    fin (ni_kappa sh) = true -> 0 <= b2r (ni_kappa sh) <= bpow radix2 100 ->
    fin (ni_nu sh) = true -> 0 <= b2r (ni_nu sh) <= bpow radix2 100 -> 0 <= b2r (ni_sigmasq sh) ->
    fin (ni_sigmasq (nich_plus_group sh g)) = true -> 0 <= b2r (ni_sigmasq (nich_plus_group sh g)).
  Proof.
    intros HC HT FK BK FN BN BS. unfold nich_plus_group. cbn [ni_sigmasq nadd nsub nmul ndiv nof nlit NN N32 NumB]. intros F.
    destruct (int_rnd (ni_count g) ltac:(lia)) as [_ FC]. pose proof (int_ge (ni_count g) 0 ltac:(lia) ltac:(lia) ltac:(lia)) as C0.
    assert (b2r (float_of_int (ni_count g)) <= bpow radix2 33) as C1.
    { rewrite (proj1 (int_rnd (ni_count g) ltac:(lia))). apply rnd_upto; [lia |].
      change (bpow radix2 33) with (IZR (Z.pow_pos 2 33)). apply IZR_le. change (Z.pow_pos 2 33) with 8589934592%Z. lia. }
    pose proof (bp 33 100 ltac:(lia)) as b1. pose proof (bp 101 127 ltac:(lia)) as b2. pose proof (bp2 100) as b3. cbn [Z.add Pos.add Pos.succ] in b3.
    destruct (plus_ok (ni_kappa sh) _ FK FC) as [EK' FK']; [rewrite Rabs_pos_eq; change (100+1)%Z with 101%Z in b3; lra |].
    destruct (plus_ok (ni_nu sh) _ FN FC) as [EN' FN']; [rewrite Rabs_pos_eq; change (100+1)%Z with 101%Z in b3; lra |].
    destruct (mult_fin _ _ F) as (F1 & F2 & ->). destruct (div_fin _ _ F1 FN') as (_ & NZ & ->).
    destruct (plus_fin _ _ F2) as (F3 & F4 & ->). destruct (plus_fin _ _ F3) as (F5 & _ & ->). destruct (mult_fin _ _ F5) as (_ & _ & ->).
    destruct (div_fin _ _ F4 FK') as (F6 & _ & ->). destruct (mult_fin _ _ F6) as (F7 & F8 & ->). destruct (mult_fin _ _ F7) as (F9 & _ & ->).
    destruct (mult_fin _ _ F9) as (_ & _ & ->). destruct (minus_fin _ _ F8) as (_ & _ & ED).
    rewrite lit1, (proj1 one_val), EK', EN'.
    assert (forall a b, 0 <= a -> 0 <= b -> 0 <= a / b) as DP.
    { intros a b Ha Hb. destruct (Req_dec b 0) as [-> | Hne].
      - unfold Rdiv. rewrite Rinv_0. lra.
      - apply Rle_mult_inv_pos; lra. }
    apply rnd_pos, Rmult_le_pos.
    - apply rnd_pos, DP; [lra |]. apply rnd_pos. lra.
    - apply rnd_pos, Rplus_le_le_0_compat; apply rnd_pos.
      + apply Rplus_le_le_0_compat; [| exact HT]. apply rnd_pos, Rmult_le_pos; lra.
      + apply DP; [| apply rnd_pos; lra]. apply rnd_pos. set (d := b2r (b32_minus mode_NE (ni_mu sh) (ni_mean g))) in *.
        set (c := rnd (b2r (float_of_int (ni_count g)) * b2r (ni_kappa sh))).
        assert (0 <= c) as Hc by (apply rnd_pos, Rmult_le_pos; lra).
        destruct (Rle_or_lt 0 d) as [L | L].
        * apply Rmult_le_pos; [| exact L]. apply rnd_pos. now apply Rmult_le_pos.
        * assert (rnd (c * d) <= 0) by (apply rnd_neg; nra). nra.
  Qed.

  (** moderate hyperparameters: finite and positive *)
  Lemma post_pos : (1 <= ni_count g <= 1048576)%Z -> fin (ni_mean g) = true -> Rabs (b2r (ni_mean g)) <= bpow radix2 40 ->
    fin (ni_ctv g) = true -> 0 <= b2r (ni_ctv g) <= bpow radix2 110 ->
    fin (ni_mu sh) = true -> Rabs (b2r (ni_mu sh)) <= bpow radix2 40 ->
    fin (ni_kappa sh) = true -> 0 < b2r (ni_kappa sh) <= bpow radix2 20 ->
    fin (ni_nu sh) = true -> 0 < b2r (ni_nu sh) <= bpow radix2 20 ->
    fin (ni_sigmasq sh) = true -> bpow radix2 (-60) <= b2r (ni_nu sh) * b2r (ni_sigmasq sh) <= bpow radix2 100 ->
    let post := nich_plus_group sh g in
    fin (ni_kappa post) = true /\ 0 < b2r (ni_kappa post) /\ fin (ni_nu post) = true /\ 0 < b2r (ni_nu post) /\
    fin (ni_mu post) = true /\
    fin (ni_sigmasq post) = true /\ bpow radix2 (-82) <= b2r (ni_sigmasq post).
  Proof.
    intros HC FM BM FT BT FMu BMu FK BK FN BN FS BS. unfold nich_plus_group. cbn [ni_sigmasq ni_kappa ni_nu ni_mu nadd nsub nmul ndiv nof nlit NN N32 NumB].
    destruct (int_ok (ni_count g) ltac:(lia)) as [EC FC]. set (c := float_of_int (ni_count g)) in *.
    assert (1 <= b2r c) as C1 by (rewrite EC; apply IZR_le; lia).
    assert (b2r c <= bpow radix2 20) as C2.
    { rewrite EC. change (bpow radix2 20) with (IZR (Z.pow_pos 2 20)). apply IZR_le. change (Z.pow_pos 2 20) with 1048576%Z. lia. }
    pose proof (bp2 20) as b20. pose proof (bp 21 127 ltac:(lia)) as b21. change (20 + 1)%Z with 21%Z in b20.
    assert (bpow radix2 0 = 1) as b0 by reflexivity.
    assert (forall k, (k <= 127)%Z -> bpow radix2 k <= bpow radix2 127) as L127 by (intros; apply bp; lia).
    (* kappa *)
    destruct (plus_ok (ni_kappa sh) c FK FC) as [EK' FK']; [rewrite Rabs_pos_eq; lra |].
    set (kp := b32_plus mode_NE (ni_kappa sh) c) in *.
    assert (1 <= b2r kp) as K1 by (rewrite EK', <- b0; apply rnd_ge; [lia | lra]).
    (* nu *)
    destruct (plus_ok (ni_nu sh) c FN FC) as [EN' FN']; [rewrite Rabs_pos_eq; lra |].
    set (np := b32_plus mode_NE (ni_nu sh) c) in *.
    assert (1 <= b2r np) as N1 by (rewrite EN', <- b0; apply rnd_ge; [lia | lra]).
    assert (b2r np <= bpow radix2 21) as N2 by (rewrite EN'; apply rnd_upto; [lia | lra]).
    (* mu *)
    assert (Rabs (b2r (ni_kappa sh)) <= bpow radix2 20) as AK by (rewrite Rabs_pos_eq; lra).
    assert (Rabs (b2r c) <= bpow radix2 20) as AC by (rewrite Rabs_pos_eq; lra).
    pose proof (mul_abs 20 40 _ _ AK BMu) as a1. pose proof (mul_abs 40 20 _ _ BM AC) as a2. cbn [Z.add] in a1, a2.
    change (20 + 40)%Z with 60%Z in a1. change (40 + 20)%Z with 60%Z in a2.
    destruct (mult_ok (ni_kappa sh) (ni_mu sh) FK FMu) as [e1 f1]; [eapply Rle_trans; [exact a1 | apply L127; lia] |].
    destruct (mult_ok (ni_mean g) c FM FC) as [e2 f2]; [eapply Rle_trans; [exact a2 | apply L127; lia] |].
    apply (rnd_abs 60 _ ltac:(lia)) in a1, a2. rewrite <- e1 in a1. rewrite <- e2 in a2.
    pose proof (bp2 60) as b60. change (60 + 1)%Z with 61%Z in b60.
    assert (Rabs (b2r (b32_mult mode_NE (ni_kappa sh) (ni_mu sh)) + b2r (b32_mult mode_NE (ni_mean g) c)) <= bpow radix2 61) as a3
      by (eapply Rle_trans; [apply Rabs_triang | lra]).
    destruct (plus_ok _ _ f1 f2) as [e3 f3]; [eapply Rle_trans; [exact a3 | apply L127; lia] |].
    apply (rnd_abs 61 _ ltac:(lia)) in a3. rewrite <- e3 in a3.
    assert (forall x y, 1 <= y -> Rabs (x / y) <= Rabs x) as DL.
    { intros x y Hy. unfold Rdiv. rewrite Rabs_mult, Rabs_inv, (Rabs_pos_eq y) by lra.
      rewrite <- (Rmult_1_r (Rabs x)) at 2. apply Rmult_le_compat_l; [apply Rabs_pos |]. rewrite <- Rinv_1. apply Rinv_le; lra. }
    destruct (div_ok _ kp f3) as [e4 f4]; [lra | eapply Rle_trans; [apply DL; exact K1 |]; eapply Rle_trans; [exact a3 | apply L127; lia] |].
    (* mu_1 *)
    pose proof (bp2 40) as b40. change (40 + 1)%Z with 41%Z in b40.
    assert (Rabs (b2r (ni_mu sh) - b2r (ni_mean g)) <= bpow radix2 41) as a5.
    { unfold Rminus. eapply Rle_trans; [apply Rabs_triang |]. rewrite Rabs_Ropp. lra. }
    destruct (minus_ok _ _ FMu FM) as [e5 f5]; [eapply Rle_trans; [exact a5 | apply L127; lia] |].
    apply (rnd_abs 41 _ ltac:(lia)) in a5. rewrite <- e5 in a5. set (d := b32_minus mode_NE (ni_mu sh) (ni_mean g)) in *.
    pose proof (mul_abs 20 20 _ _ AC AK) as a6. change (20 + 20)%Z with 40%Z in a6.
    destruct (mult_ok c (ni_kappa sh) FC FK) as [e6 f6]; [eapply Rle_trans; [exact a6 | apply L127; lia] |].
    apply (rnd_abs 40 _ ltac:(lia)) in a6. rewrite <- e6 in a6. set (ck := b32_mult mode_NE c (ni_kappa sh)) in *.
    assert (0 <= b2r ck) as ck0 by (rewrite e6; apply rnd_pos, Rmult_le_pos; lra).
    pose proof (mul_abs 40 41 _ _ a6 a5) as a7. change (40 + 41)%Z with 81%Z in a7.
    destruct (mult_ok ck d f6 f5) as [e7 f7]; [eapply Rle_trans; [exact a7 | apply L127; lia] |].
    apply (rnd_abs 81 _ ltac:(lia)) in a7. rewrite <- e7 in a7. set (cd := b32_mult mode_NE ck d) in *.
    pose proof (mul_abs 81 41 _ _ a7 a5) as a8. change (81 + 41)%Z with 122%Z in a8.
    destruct (mult_ok cd d f7 f5) as [e8 f8]; [eapply Rle_trans; [exact a8 | apply L127; lia] |].
    apply (rnd_abs 122 _ ltac:(lia)) in a8. rewrite <- e8 in a8. set (cdd := b32_mult mode_NE cd d) in *.
    assert (0 <= b2r cdd) as cdd0.
    { rewrite e8. apply rnd_pos. rewrite e7. destruct (Rle_or_lt 0 (b2r d)) as [L | L].
      - apply Rmult_le_pos; [| exact L]. apply rnd_pos. now apply Rmult_le_pos.
      - assert (rnd (b2r ck * b2r d) <= 0) by (apply rnd_neg; nra). nra. }
    assert (Rabs (b2r cdd / b2r kp) <= bpow radix2 122) as a9 by (eapply Rle_trans; [apply DL; exact K1 | exact a8]).
    destruct (div_ok cdd kp f8) as [e9 f9]; [lra | eapply Rle_trans; [exact a9 | apply L127; lia] |].
    apply (rnd_abs 122 _ ltac:(lia)) in a9. rewrite <- e9 in a9. set (last := b32_div mode_NE cdd kp) in *.
    assert (0 <= b2r last) as last0 by (rewrite e9; apply rnd_pos, Rle_mult_inv_pos; lra).
    (* nu * sigmasq + ctv *)
    assert (0 <= b2r (ni_nu sh) * b2r (ni_sigmasq sh)) as ns0 by (pose proof (bpow_gt_0 radix2 (-60)); lra).
    destruct (mult_ok (ni_nu sh) (ni_sigmasq sh) FN FS) as [e10 f10]; [rewrite Rabs_pos_eq by exact ns0; pose proof (L127 100%Z ltac:(lia)); lra |].
    set (ns := b32_mult mode_NE (ni_nu sh) (ni_sigmasq sh)) in *.
    assert (bpow radix2 (-60) <= b2r ns) as ns1 by (rewrite e10; apply rnd_ge; [lia | lra]).
    assert (b2r ns <= bpow radix2 100) as ns2 by (rewrite e10; apply rnd_upto; [lia | lra]).
    pose proof (bpow_gt_0 radix2 (-60)) as p60. pose proof (bp 100 110 ltac:(lia)) as b100. pose proof (bp2 110) as b110. change (110 + 1)%Z with 111%Z in b110.
    destruct (plus_ok ns (ni_ctv g) f10 FT) as [e11 f11]; [rewrite Rabs_pos_eq; [pose proof (L127 111%Z ltac:(lia)); lra | lra] |].
    set (a := b32_plus mode_NE ns (ni_ctv g)) in *.
    assert (bpow radix2 (-60) <= b2r a) as A1 by (rewrite e11; apply rnd_ge; [lia | lra]).
    assert (b2r a <= bpow radix2 111) as A2 by (rewrite e11; apply rnd_upto; [lia | lra]).
    pose proof (bp 111 122 ltac:(lia)) as b111. pose proof (bp2 122) as b122. change (122 + 1)%Z with 123%Z in b122.
    apply Rabs_le_inv in a9.
    destruct (plus_ok a last f11 f9) as [e12 f12]; [rewrite Rabs_pos_eq; [pose proof (L127 123%Z ltac:(lia)); lra | lra] |].
    set (b := b32_plus mode_NE a last) in *.
    assert (bpow radix2 (-60) <= b2r b) as B1 by (rewrite e12; apply rnd_ge; [lia | lra]).
    assert (b2r b <= bpow radix2 123) as B2 by (rewrite e12; apply rnd_upto; [lia | lra]).
    (* 1 / nu *)
    rewrite lit1. destruct one_val as [E1 F1].
    assert (bpow radix2 (-21) <= 1 / b2r np <= 1) as I1.
    { unfold Rdiv. rewrite Rmult_1_l. rewrite (bpow_opp radix2 21 : bpow radix2 (-21) = _). split.
      - apply Rinv_le; lra.
      - rewrite <- Rinv_1. apply Rinv_le; lra. }
    pose proof (bpow_gt_0 radix2 (-21)) as p21. pose proof (L127 0%Z ltac:(lia)) as b127.
    destruct (div_ok (float_of_int 1) np F1) as [e13 f13]; [lra | rewrite E1, Rabs_pos_eq; lra |].
    rewrite E1 in e13. set (i := b32_div mode_NE (float_of_int 1) np) in *.
    assert (bpow radix2 (-21) <= b2r i) as i1 by (rewrite e13; apply rnd_ge; [lia | lra]).
    assert (b2r i <= 1) as i2 by (rewrite e13; eapply Rle_trans; [apply (rnd_upto 0); [lia | rewrite b0; lra] | lra]).
    assert (b2r i * b2r b <= bpow radix2 123) as S1.
    { rewrite <- (Rmult_1_l (bpow radix2 123)). apply Rmult_le_compat; lra. }
    assert (bpow radix2 (-82) <= b2r i * b2r b) as S2.
    { eapply Rle_trans; [apply (bp (-82) (-21 + -60)); lia |]. rewrite bpow_plus. apply Rmult_le_compat; lra. }
    pose proof (bpow_gt_0 radix2 (-82)) as p82.
    destruct (mult_ok i b f13 f12) as [e14 f14]; [rewrite Rabs_pos_eq by lra; pose proof (L127 123%Z ltac:(lia)); lra |].
    split; [exact FK' |]. split; [lra |]. split; [exact FN' |]. split; [lra |]. split; [exact f4 |]. split; [exact f14 |].
    rewrite e14. apply rnd_ge; [lia | exact S2].
  Qed.
End P.

(** ** Whole histories *)
Section H.
  Variables (tbl : list Z) (lit : Z -> Z -> binary32) (lg lgam lgam_nu : binary32 -> binary32)
    (lfact : Z -> binary32) (sq : binary32 -> binary32) (pw : binary32 -> binary32 -> binary32).
  Hypothesis lit0 : lit 0 1 = float_of_int 0.
  Hypothesis lit1 : lit 1 1 = float_of_int 1.
  Let NN : Num binary32 := N32 tbl lit lg lgam lgam_nu lfact sq pw.
  #[local] Hint Extern 0 (Num binary32) => exact NN : typeclass_instances.

  Lemma accuracy M lo hi : / 2 ^ 50 <= M <= 2 ^ 40 -> - M <= lo -> hi <= M ->
    forall dl (sh : nich_shared binary32) (vs : list binary32), vs <> [] -> (Z.of_nat (length vs) <= 1048576)%Z ->
    List.Forall (fun v => fin v = true /\ lo <= b2r v <= hi) vs ->
    let xs := map (fun v : binary32 => b2r v) vs in let n := INR (length vs) in
    exists g, hrun (NICH binary32) dl sh (map HAdd vs) = Ok g /\
      ni_count g = Z.of_nat (length vs) /\
      fin (ni_mean g) = true /\ lo <= b2r (ni_mean g) <= hi /\
      Rabs (b2r (ni_mean g) - rmean xs) <= (n + 11) / 33554432 * M /\
      fin (ni_ctv g) = true /\ 0 <= b2r (ni_ctv g) /\
      Rabs (b2r (ni_ctv g) / n - ssd xs / n) <= (4 * n + 40) / 16777216 * M ^ 2.
  Proof.
    intros HM Hlo Hhi dl sh vs NE HL HV xs n.
    destruct (acc_all tbl lit lg lgam lgam_nu lfact sq pw lit0 M lo hi HM Hlo Hhi dl sh vs NE HL HV) as (g & E & A).
    exists g. split; [exact E |]. fold xs in A. destruct A as (A1 & A2 & A3 & A4 & A5 & A6 & A7).
    assert (length (rev xs) = length vs) as EL by (unfold xs; rewrite rev_length; apply map_length).
    assert (Permutation.Permutation (rev xs) xs) as P by (apply Permutation.Permutation_sym, Permutation.Permutation_rev).
    rewrite EL in *. fold n in A5, A6, A7. rewrite (rsum_perm _ _ P) in A5. rewrite (ssd_perm _ _ P) in A7.
    assert (0 < n) as N0 by (apply len_pos; exact NE).
    assert (xs <> []) as NX by (unfold xs; destruct vs; [congruence | discriminate]).
    split; [exact A1 |]. split; [exact A2 |]. split; [exact A4 |]. split; [| split; [exact A3 |]; split; [lra |]].
    - rewrite rmean_eq by exact NX. unfold xs at 2. rewrite map_length. fold n.
      replace (b2r (ni_mean g) - rsum xs / n) with (/ n * (n * b2r (ni_mean g) - rsum xs)) by (field; lra).
      rewrite Rabs_mult, Rabs_inv, (Rabs_pos_eq n) by lra. apply Rmult_le_reg_l with n; [exact N0 |].
      rewrite <- Rmult_assoc, Rinv_r, Rmult_1_l by lra. eapply Rle_trans; [exact A5 |]. right. unfold u24. field.
    - replace (b2r (ni_ctv g) / n - ssd xs / n) with (/ n * (b2r (ni_ctv g) - ssd xs)) by (field; lra).
      rewrite Rabs_mult, Rabs_inv, (Rabs_pos_eq n) by lra. apply Rmult_le_reg_l with n; [exact N0 |].
      rewrite <- Rmult_assoc, Rinv_r, Rmult_1_l by lra. eapply Rle_trans; [exact A7 |]. right. unfold u24. field.
  Qed.

  Lemma bp_pow k : (0 < k)%nat -> bpow radix2 (Z.of_nat k) = 2 ^ k.
  Proof. intros _. rewrite pow_IZR. rewrite <- (IZR_Zpower radix2) by lia. reflexivity. Qed.

  Lemma posterior dl (sh : nich_shared binary32) (vs : list binary32) : vs <> [] -> (Z.of_nat (length vs) <= 1048576)%Z ->
    List.Forall (fun v => fin v = true /\ Rabs (b2r v) <= bpow radix2 40) vs ->
    fin (ni_mu sh) = true -> Rabs (b2r (ni_mu sh)) <= bpow radix2 40 ->
    fin (ni_kappa sh) = true -> 0 < b2r (ni_kappa sh) <= bpow radix2 20 ->
    fin (ni_nu sh) = true -> 0 < b2r (ni_nu sh) <= bpow radix2 20 ->
    fin (ni_sigmasq sh) = true -> bpow radix2 (-60) <= b2r (ni_nu sh) * b2r (ni_sigmasq sh) <= bpow radix2 100 ->
    exists g, hrun (NICH binary32) dl sh (map HAdd vs) = Ok g /\
      let post := nich_plus_group sh g in
      fin (ni_kappa post) = true /\ 0 < b2r (ni_kappa post) /\ fin (ni_nu post) = true /\ 0 < b2r (ni_nu post) /\
      fin (ni_mu post) = true /\ fin (ni_sigmasq post) = true /\ 0 < b2r (ni_sigmasq post).
  Proof.
    intros NE HL HV Hmu Bmu Hk Bk Hn Bn Hs Bs. pose proof (bp_pow 40 ltac:(lia)) as E40. change (Z.of_nat 40) with 40%Z in E40.
    destruct (acc_all tbl lit lg lgam lgam_nu lfact sq pw lit0 (2 ^ 40) (- 2 ^ 40) (2 ^ 40)) with (dl := dl) (sh := sh) (vs := vs)
      as (g & E & A1 & A2 & A3 & A4 & A5 & A6 & A7); try assumption; try lra.
    { eapply Forall_impl; [| exact HV]. intros a [F B]. split; [exact F |]. rewrite E40 in B. now apply Rabs_le_inv. }
    exists g. split; [exact E |]. rewrite rev_length, map_length in *.
    assert (1 <= Z.of_nat (length vs))%Z by (destruct vs; [congruence | cbn [length]; lia]).
    assert (INR (length vs) <= 1048576) as HN by (rewrite INR_IZR_INZ; apply IZR_le; lia).
    pose proof (bp_pow 110 ltac:(lia)) as E110. change (Z.of_nat 110) with 110%Z in E110.
    destruct (post_pos tbl lit lg lgam lgam_nu lfact sq pw lit1 sh g) as (P1 & P2 & P3 & P4 & P5 & P6 & P7); try assumption.
    - lia.
    - rewrite E40. now apply Rabs_le.
    - split; [apply A6 |]. rewrite E110. eapply Rle_trans; [apply A6 |].
      apply Rle_trans with (1048576 * (5 * (2 ^ 40 * 2 ^ 40))); [apply Rmult_le_compat_r; [lra | exact HN] | lra].
    - pose proof (bpow_gt_0 radix2 (-82)). cbv zeta. split; [exact P1 |]. split; [exact P2 |]. split; [exact P3 |]. split; [exact P4 |].
      split; [exact P5 |]. split; [exact P6 |]. eapply Rlt_le_trans; [eassumption | exact P7].
  Qed.

  Lemma plus_nan x y : is_nan 24 128 x = true -> is_nan 24 128 (b32_plus mode_NE x y) = true.
  Proof. destruct x; try discriminate. intros _. destruct y; reflexivity. Qed.
  Lemma ok_inj {A} (x y : A) : Ok x = Ok y -> x = y.
  Proof. now intros [= ->]. Qed.
  Lemma nan_1 dl (sh : nich_shared binary32) : forall (o : hop binary32) g g', hop_grows o -> is_nan 24 128 (ni_mean g) = true ->
    hrun1 (NICH binary32) dl sh g o = Ok g' -> is_nan 24 128 (ni_mean g') = true.
  Proof.
    intros [v | v | v n | l] g g' HG HN H; try contradiction HG.
    - cbn [hrun1] in H. cbn [c_add NICH] in H. unfold nich_add in H. destruct (i32 _); try discriminate H. cbn [obind] in H.
      apply ok_inj in H. subst g'. cbn [ni_mean nadd NN N32 NumB]. now apply plus_nan.
    - cbn [hrun1] in H. destruct (_ _ l) as [h | |] in H; try discriminate H. cbn [obind] in H. cbn [c_merge NICH] in H.
      unfold nich_merge in H. destruct (i32 _); try discriminate H. cbn [obind] in H.
      apply ok_inj in H. subst g'. cbn [ni_mean nadd NN N32 NumB]. now apply plus_nan.
  Qed.
  Lemma nan_run dl (sh : nich_shared binary32) : forall (l : list (hop binary32)) g g', only_grows l -> is_nan 24 128 (ni_mean g) = true ->
    hruns (NICH binary32) dl sh g l = Ok g' -> is_nan 24 128 (ni_mean g') = true.
  Proof.
    induction l as [|o l IH]; intros g g' HG HN H; cbn [hruns] in H; [injection H as <-; exact HN |].
    destruct HG as [G1 G2]. destruct (hrun1 (NICH binary32) dl sh g o) as [g1 | |] eqn:E; try discriminate H. cbn [obind] in H.
    exact (IH g1 g' G2 (nan_1 dl sh o g g1 G1 HN E) H).
  Qed.
  Lemma empty_merge dl (sh : nich_shared binary32) :
    (exists g, hrun (NICH binary32) dl sh [HMerge []] = Ok g /\ ni_count g = 0%Z /\
       is_nan 24 128 (ni_mean g) = true /\ is_nan 24 128 (ni_ctv g) = true) /\
    (forall (l : list (hop binary32)) g, only_grows l -> hrun (NICH binary32) dl sh (HMerge [] :: l) = Ok g ->
       is_nan 24 128 (ni_mean g) = true).
  Proof.
    assert (exists g, hrun1 (NICH binary32) dl sh (nich_init sh) (HMerge []) = Ok g /\ ni_count g = 0%Z /\
       is_nan 24 128 (ni_mean g) = true /\ is_nan 24 128 (ni_ctv g) = true) as (g0 & E & C).
    { cbn [hrun1]. cbn [c_merge c_init NICH obind]. unfold nich_merge, nich_init. cbn [ni_count ni_mean ni_ctv nlit NN N32 NumB].
      rewrite lit0. eexists. split; [reflexivity |]. split; [reflexivity |]. split; vm_compute; reflexivity. }
    split.
    - exists g0. unfold hrun. cbn [hruns c_init NICH]. rewrite E. cbn [obind]. split; [reflexivity | exact C].
    - intros l g HG H. unfold hrun in H.
      change (obind (hrun1 (NICH binary32) dl sh (nich_init sh) (HMerge [])) (fun g' => hruns (NICH binary32) dl sh g' l) = Ok g) in H.
      rewrite E in H. cbn [obind] in H.
      exact (nan_run dl sh l g0 g HG (proj1 (proj2 C)) H).
  Qed.
End H.
