(** Sampler of NormalInverseChiSq: the law of its draws. *)
From Coq Require Import List Reals Lra Lia Psatz.
From Coquelicot Require Import Coquelicot.
From Verif.spec Require Import DrawSpec LgammaSpec.
From Verif.model Require Import Base Num NumR Component Random NICH GroupSampler.
From Verif.proof Require Import BaseProof LgammaProof DirichletLaw DrawProof GammaFunction NormalLaw DrawCount.
Import ListNotations.
Local Open Scope R_scope.

(** exponent and constant of the joint density, as functions of S = nu sigmasq / 2 *)
Fixpoint dsum (S mu kappa : R) (vs : list R) : R :=
  match vs with
  | [] => 0
  | v :: t => (v - mu)² / (2 * S * (1 + / kappa)) + dsum S ((kappa * mu + v) / (kappa + 1)) (kappa + 1) t
  end.
Fixpoint csum (S kappa : R) (vs : list R) : R :=
  match vs with [] => 1 | _ :: t => / sqrt (2 * PI * S * (1 + / kappa)) * csum S (kappa + 1) t end.

Lemma inv1 kappa : 0 < kappa -> 0 < 1 + / kappa.
Proof. intros H. pose proof (Rinv_0_lt_compat _ H). lra. Qed.
Lemma two_pi_pos a b : 0 < a -> 0 < b -> 0 < 2 * PI * a * b.
Proof. intros Ha Hb. pose proof PI_RGT_0. assert (0 < 2 * PI) by lra. apply Rmult_lt_0_compat; [now apply Rmult_lt_0_compat | exact Hb]. Qed.
Lemma dsum_nonneg S vs : 0 < S -> forall mu kappa, 0 < kappa -> 0 <= dsum S mu kappa vs.
Proof.
  intros HS. induction vs as [|v t IH]; intros mu kappa Hk; cbn [dsum]; [lra |].
  specialize (IH ((kappa * mu + v) / (kappa + 1)) (kappa + 1) ltac:(lra)). pose proof (inv1 kappa Hk) as P.
  assert (0 <= (v - mu)² / (2 * S * (1 + / kappa))); [| lra]. apply Rmult_le_pos; [apply Rle_0_sqr |]. left. apply Rinv_0_lt_compat.
  apply Rmult_lt_0_compat; lra.
Qed.
Lemma dsum_scale S c vs : 0 < S -> 0 < c -> forall mu kappa, 0 < kappa -> dsum (S * c) mu kappa vs = dsum S mu kappa vs / c.
Proof.
  intros HS Hc. induction vs as [|v t IH]; intros mu kappa Hk; cbn [dsum]; [field; lra |].
  rewrite IH by lra. pose proof (inv1 kappa Hk) as P. set (D := dsum S _ _ t). set (i := 1 + / kappa) in *. field. lra.
Qed.
Lemma csum_scale S c vs : 0 < S -> 0 < c -> forall kappa, 0 < kappa -> csum (S * c) kappa vs = csum S kappa vs / Rpower c (INR (length vs) / 2).
Proof.
  intros HS Hc. induction vs as [|v t IH]; intros kappa Hk; cbn [csum length].
  - cbn [INR]. replace (0 / 2) with 0 by field. rewrite Rpower_O by exact Hc. field.
  - rewrite IH by lra. pose proof (inv1 kappa Hk) as P. pose proof PI_RGT_0 as PP. rewrite S_INR.
    replace ((INR (length t) + 1) / 2) with (INR (length t) / 2 + / 2) by field. rewrite Rpower_plus, Rpower_sqrt by exact Hc.
    set (i := 1 + / kappa) in *. replace (2 * PI * (S * c) * i) with (2 * PI * S * i * c) by ring.
    assert (0 < 2 * PI * S * i) as Q by (now apply two_pi_pos).
    rewrite sqrt_mult by lra. pose proof (sqrt_lt_R0 _ Q). pose proof (sqrt_lt_R0 _ Hc). assert (0 < Rpower c (INR (length t) / 2)) by apply exp_pos.
    field. lra.
Qed.
Lemma joint_form S x vs : 0 < S -> 0 < x -> forall mu kappa, 0 < kappa ->
  normal_joint mu kappa (sqrt (S / x)) vs = csum S kappa vs * (Rpower x (INR (length vs) / 2) * exp (- (dsum S mu kappa vs * x))).
Proof.
  intros HS Hx. induction vs as [|v t IH]; intros mu kappa Hk; cbn [normal_joint csum dsum length].
  - cbn [INR]. replace (0 / 2) with 0 by field. rewrite Rpower_O by exact Hx. replace (- (0 * x)) with 0 by ring. rewrite exp_0. ring.
  - rewrite IH by lra. pose proof (inv1 kappa Hk) as P. pose proof PI_RGT_0 as PP. rewrite S_INR.
    replace ((INR (length t) + 1) / 2) with (INR (length t) / 2 + / 2) by field. rewrite Rpower_plus, Rpower_sqrt by exact Hx.
    set (D := dsum S _ _ t). set (i := 1 + / kappa) in *. set (Q := csum S (kappa + 1) t).
    assert (0 < S / x) as PS by (now apply Rdiv_lt_0_compat).
    assert (sqrt (S / x) * sqrt i * sqrt (2 * PI) = sqrt (2 * PI * S * i) / sqrt x) as E1.
    { rewrite <- sqrt_mult by lra. rewrite <- sqrt_mult; [| apply Rmult_le_pos; lra | lra]. rewrite <- sqrt_div; [| left; now apply two_pi_pos | exact Hx].
      f_equal. field. lra. }
    assert (normal_weight mu (sqrt (S / x) * sqrt i) v = exp (- ((v - mu)² / (2 * S * i) * x))) as E2.
    { unfold normal_weight. f_equal. rewrite <- sqrt_mult by lra. rewrite Rsqr_div'.
      rewrite Rsqr_sqrt by (apply Rmult_le_pos; lra). field. lra. }
    unfold normal_density. rewrite E1, E2.
    replace (exp (- (((v - mu)² / (2 * S * i) + D) * x))) with (exp (- ((v - mu)² / (2 * S * i) * x)) * exp (- (D * x))) by (rewrite <- exp_plus; f_equal; ring).
    assert (0 < 2 * PI * S * i) as PQ by (now apply two_pi_pos). pose proof (sqrt_lt_R0 _ PQ). pose proof (sqrt_lt_R0 _ Hx). field. lra.
Qed.

(** the literal M_PIf against pi *)
Definition m_pi_gap : R := / 2 * (ln PI - ln (314159265358979 / 100000000000000)).

Section S.
  Variable lg : R -> R.
  #[local] Hint Extern 0 (Num R) => exact (NumR lg) : typeclass_instances.

  Definition nich_closed (nu S mu kappa : R) (vs : list R) : R :=
    exp (lg (nu / 2 + INR (length vs) / 2) - lg (nu / 2)) * (csum S kappa vs / Rpower (1 + dsum S mu kappa vs) (nu / 2 + INR (length vs) / 2)).

  Lemma nich_mean nu S mu kappa vs : is_log_gamma lg -> 0 < nu -> 0 < S -> 0 < kappa ->
    gamma_mean [nu / 2] (fun xs => normal_joint mu kappa (sqrt (S / nth 0 xs 0)) vs) (nich_closed nu S mu kappa vs).
  Proof using Type.
    intros HG Hn HS Hk. set (A := nu / 2). assert (0 < A) as HA by (unfold A; lra). set (V := INR (length vs) / 2).
    assert (0 <= V) as PV by (unfold V; pose proof (pos_INR (length vs)); lra).
    set (K := csum S kappa vs). set (D := dsum S mu kappa vs). pose proof (dsum_nonneg S vs HS mu kappa Hk) as PD. fold D in PD.
    assert (is_lim_seq (fun n => K * (RInt (fun x => Rpower x (A + V - 1) * exp (- ((1 + D) * x))) (lo n) (hi n) / G (lo n) (hi n) A))
              (K * (exp (lg (A + V) - lg A) / Rpower (1 + D) (A + V)))) as H.
    { apply (is_lim_seq_scal_l _ K (exp (lg (A + V) - lg A) / Rpower (1 + D) (A + V))). apply scaled_lim; [lra | lra |]. apply ratio_gamma; [exact HG | lra | lra]. }
    unfold nich_closed. fold A V K D.
    replace (exp (lg (A + V) - lg A) * (K / Rpower (1 + D) (A + V))) with (K * (exp (lg (A + V) - lg A) / Rpower (1 + D) (A + V))) by (unfold Rdiv; ring).
    unfold gamma_mean. eapply is_lim_seq_ext; [| exact H]. intros n. cbv beta. change (/ INR (Datatypes.S n)) with (lo n). change (INR (Datatypes.S n)) with (hi n).
    cbn [box_integral nth].
    assert (forall x, lo n <= x <= hi n -> 0 < x) as PX by (intros x Hx; pose proof (lo_pos n); lra).
    assert (ex_RInt (fun x => Rpower x (A + V - 1) * exp (- ((1 + D) * x))) (lo n) (hi n)) as EX.
    { apply (ex_RInt_continuous (V := R_CompleteNormedModule)). intros x Hx. rewrite Rmin_left, Rmax_right in Hx by apply lo_hi.
      apply (ex_derive_continuous (fun x => Rpower x (A + V - 1) * exp (- ((1 + D) * x)))). unfold Rpower. auto_derive. now apply PX. }
    rewrite (rint_ext (fun x => gamma_weight A x * 1) (gamma_weight A) _ _ (lo_hi n)) by (intros; ring).
    fold (G (lo n) (hi n) A).
    rewrite (rint_ext (fun x => gamma_weight A x * normal_joint mu kappa (sqrt (S / x)) vs)
                      (fun x => K * (Rpower x (A + V - 1) * exp (- ((1 + D) * x)))) _ _ (lo_hi n)).
    - rewrite rint_scal by exact EX. unfold Rdiv. ring.
    - intros x Hx. specialize (PX x Hx). rewrite joint_form by assumption. fold V K D. unfold gamma_weight.
      replace (exp (- ((1 + D) * x))) with (exp (- x) * exp (- (D * x))) by (rewrite <- exp_plus; f_equal; ring).
      replace (Rpower x (A + V - 1)) with (Rpower x (A - 1) * Rpower x V) by (rewrite <- Rpower_plus; f_equal; ring). ring.
  Qed.

  (** one step of the closed form: the student-t density, then the updated parameters *)
  Lemma closed_step nu S mu kappa v t : 0 < nu -> 0 < S -> 0 < kappa ->
    let D1 := (v - mu)² / (2 * S * (1 + / kappa)) in
    nich_closed nu S mu kappa (v :: t) =
    exp (lg (nu / 2 + / 2) - lg (nu / 2) - / 2 * ln (2 * PI * S * (1 + / kappa)) - (nu / 2 + / 2) * ln (1 + D1)) *
    nich_closed (nu + 1) (S * (1 + D1)) ((kappa * mu + v) / (kappa + 1)) (kappa + 1) t.
  Proof using Type.
    intros Hn HS Hk D1. pose proof (inv1 kappa Hk) as P. pose proof PI_RGT_0 as PP.
    assert (0 <= D1) as PD1. { pose proof (dsum_nonneg S [v] HS mu kappa Hk) as Q. cbn [dsum] in Q. unfold D1. lra. }
    unfold nich_closed. cbn [csum dsum length]. fold D1. rewrite csum_scale, dsum_scale by lra.
    pose proof (dsum_nonneg S t HS ((kappa * mu + v) / (kappa + 1)) (kappa + 1) ltac:(lra)) as PD.
    set (D := dsum S _ _ t) in *. set (Q := csum S (kappa + 1) t). set (k := INR (length t)). rewrite S_INR. fold k.
    replace ((nu + 1) / 2) with (nu / 2 + / 2) by field.
    replace (nu / 2 + (k + 1) / 2) with (nu / 2 + / 2 + k / 2) by field.
    set (A := nu / 2). set (i := 1 + / kappa) in *.
    assert (0 < 2 * PI * S * i) as PQ by (now apply two_pi_pos).
    assert (/ sqrt (2 * PI * S * i) = exp (- (/ 2 * ln (2 * PI * S * i)))) as ->.
    { rewrite exp_Ropp. f_equal. rewrite <- Rpower_sqrt by exact PQ. reflexivity. }
    assert (0 <= D / (1 + D1)) as PD2 by (apply Rmult_le_pos; [exact PD | left; apply Rinv_0_lt_compat; lra]).
    replace (1 + (D1 + D)) with ((1 + D1) * (1 + D / (1 + D1))) by (field; lra).
    assert (forall a b, a / exp b = a * exp (- b)) as DE by (intros; unfold Rdiv; now rewrite exp_Ropp).
    unfold Rpower. rewrite !DE. rewrite (ln_mult (1 + D1)) by lra.
    set (L1 := ln (1 + D1)). set (L2 := ln (1 + D / (1 + D1))). set (L0 := ln (2 * PI * S * i)).
    transitivity (Q * exp ((lg (A + / 2 + k / 2) - lg A) + - (/ 2 * L0) + - ((A + / 2 + k / 2) * (L1 + L2)))); [rewrite !exp_plus; ring |].
    transitivity (Q * exp ((lg (A + / 2) - lg A - / 2 * L0 - (A + / 2) * L1) + (lg (A + / 2 + k / 2) - lg (A + / 2)) + - (k / 2 * L1) + - ((A + / 2 + k / 2) * L2))).
    - do 2 f_equal. ring.
    - rewrite !exp_plus. ring.
  Qed.

  Definition post_S (sh : nich_shared R) : R := ni_nu sh * ni_sigmasq sh / 2.
  Lemma score_exp (sh : nich_shared R) g v : let p := nich_plus_group sh g in 0 < ni_nu p -> 0 < ni_kappa p -> 0 < ni_sigmasq p ->
    nich_score_value sh g v =
    lg (ni_nu p / 2 + / 2) - lg (ni_nu p / 2) - / 2 * ln (2 * PI * post_S p * (1 + / ni_kappa p))
      - (ni_nu p / 2 + / 2) * ln (1 + (v - ni_mu p)² / (2 * post_S p * (1 + / ni_kappa p))) + m_pi_gap.
  Proof using Type.
    intros p Hn Hk Hs. unfold nich_score_value, nich_scorer_eval, nich_scorer_init. fold p. cbn [nis_score nis_coeff nis_prec nis_mean].
    unfold half, m_pif, sqr. cbn [nof nlit nadd nsub nmul ndiv nneg nlog nlgamma_nu NumR]. unfold post_S, m_pi_gap. rewrite ?Rdiv_1.
    set (nu := ni_nu p) in *. set (ka := ni_kappa p) in *. set (s2 := ni_sigmasq p) in *. set (m := ni_mu p).
    pose proof (inv1 ka Hk) as P. pose proof PI_RGT_0 as PP. set (q := 314159265358979 / 100000000000000). assert (0 < q) as Pq by (unfold q; lra).
    assert (0 < nu * s2) as Pns by (now apply Rmult_lt_0_compat).
    assert (0 < nu * s2 * (1 + / ka)) as PX by (now apply Rmult_lt_0_compat).
    replace (ka / ((ka + 1) * s2) / (q * nu)) with (/ (q * (nu * s2 * (1 + / ka)))) by (field; repeat split; lra).
    rewrite ln_Rinv by (apply Rmult_lt_0_compat; assumption). rewrite (ln_mult q) by assumption.
    replace (2 * PI * (nu * s2 / 2) * (1 + / ka)) with (PI * (nu * s2 * (1 + / ka))) by (field; lra).
    rewrite (ln_mult PI) by assumption.
    replace (ka / ((ka + 1) * s2) / nu * ((v - m) * (v - m))) with ((v - m)² / (2 * (nu * s2 / 2) * (1 + / ka))) by (unfold Rsqr; field; repeat split; lra).
    lra.
  Qed.
  Lemma post_step dl (sh : nich_shared R) g v g' : 0 < ni_nu sh -> 0 < ni_kappa sh -> (0 <= ni_count g)%Z -> nich_add dl sh g v = Ok g' ->
    let p := nich_plus_group sh g in let p' := nich_plus_group sh g' in
    0 < post_S p ->
    ni_count g' = (ni_count g + 1)%Z /\ ni_nu p' = ni_nu p + 1 /\ ni_kappa p' = ni_kappa p + 1 /\ ni_mu p' = (ni_kappa p * ni_mu p + v) / (ni_kappa p + 1) /\
    post_S p' = post_S p * (1 + (v - ni_mu p)² / (2 * post_S p * (1 + / ni_kappa p))).
  Proof using Type.
    intros Hn Hk Hc EA p p' HS. unfold nich_add, i32 in EA. destruct (_ && _)%bool; [| discriminate]. cbn [obind] in EA. apply ok_inj in EA. subst g'.
    apply IZR_le in Hc. unfold p', p, post_S, nich_plus_group in *. cbn [ni_count ni_mean ni_ctv ni_mu ni_kappa ni_sigmasq ni_nu] in *.
    cbn [nof nlit nadd nsub nmul ndiv nneg NumR] in *. rewrite plus_IZR. set (n := IZR (ni_count g)) in *.
    split; [reflexivity |]. split; [ring |]. split; [ring |]. split; [field; lra |].
    assert (forall S N I, 0 < S -> 0 < I -> S * (1 + N / (2 * S * I)) = S + N / (2 * I)) as FE by (intros; field; lra).
    rewrite FE by (exact HS || (apply inv1; lra)). unfold Rsqr. field. repeat split; try lra.
  Qed.
  Lemma nich_joint dl (sh : nich_shared R) vs : forall g q, 0 < ni_nu sh -> 0 < ni_kappa sh -> (0 <= ni_count g)%Z ->
    let p := nich_plus_group sh g in 0 < post_S p ->
    predicted (fun g v s => nich_score_value sh g v = s) (fun g v g' => nich_add dl sh g v = Ok g') g vs q ->
    q = nich_closed (ni_nu p) (post_S p) (ni_mu p) (ni_kappa p) vs * exp (INR (length vs) * m_pi_gap).
  Proof using Type.
    intros g q Hn Hk Hc p HS HL. unfold p in *. clear p.
    assert (forall g, (0 <= ni_count g)%Z -> 0 < ni_nu (nich_plus_group sh g) /\ 0 < ni_kappa (nich_plus_group sh g)) as PP.
    { intros g0 H. apply IZR_le in H. unfold nich_plus_group. cbn [ni_nu ni_kappa nof nadd NumR]. lra. }
    assert (forall p : nich_shared R, 0 < ni_nu p -> 0 < post_S p -> 0 < ni_sigmasq p) as PS.
    { intros p H1 H2. unfold post_S in H2. apply Rmult_lt_reg_l with (ni_nu p); [exact H1 |]. lra. }
    assert (forall g v s t, (0 <= ni_count g)%Z -> 0 < post_S (nich_plus_group sh g) -> nich_score_value sh g v = s -> let p := nich_plus_group sh g in
      nich_closed (ni_nu p) (post_S p) (ni_mu p) (ni_kappa p) (v :: t) * exp m_pi_gap =
      exp s * nich_closed (ni_nu p + 1) (post_S p * (1 + (v - ni_mu p)² / (2 * post_S p * (1 + / ni_kappa p)))) ((ni_kappa p * ni_mu p + v) / (ni_kappa p + 1)) (ni_kappa p + 1) t) as STEP.
    { intros g0 v s t H1 H2 <- p. destruct (PP g0 H1) as [Q1 Q2]. rewrite closed_step by assumption. cbn zeta.
      rewrite (score_exp sh g0 v) by (try assumption; now apply PS). fold p. rewrite exp_plus. ring. }
    assert (forall nu S mu ka, nich_closed nu S mu ka [] = 1) as NIL.
    { intros. unfold nich_closed. cbn [csum dsum length INR]. replace (nu / 2 + 0 / 2) with (nu / 2) by field. rewrite Rminus_eq_0, exp_0.
      rewrite Rplus_0_r. unfold Rpower. rewrite ln_1, Rmult_0_r, exp_0. field. }
    revert Hc HS. induction HL as [g | g v s E | g v s g' vs q E EA HL IH]; intros Hc HS.
    - rewrite NIL. cbn [length INR]. rewrite Rmult_0_l, exp_0. ring.
    - cbn [length INR]. rewrite Rmult_1_l, (STEP g v s) by assumption. rewrite NIL. ring.
    - destruct (post_step dl sh g v g' Hn Hk Hc EA HS) as (C1 & C2 & C3 & C4 & C5).
      assert (0 < post_S (nich_plus_group sh g')) as HS'.
      { rewrite C5. apply Rmult_lt_0_compat; [exact HS |]. pose proof (dsum_nonneg (post_S (nich_plus_group sh g)) [v] HS (ni_mu (nich_plus_group sh g)) _ (proj2 (PP g Hc))) as Q.
        cbn [dsum] in Q. lra. }
      rewrite (IH ltac:(lia) HS'), C2, C3, C4, C5. change (length (v :: vs)) with (Datatypes.S (length vs)). rewrite S_INR.
      replace ((INR (length vs) + 1) * m_pi_gap) with (m_pi_gap + INR (length vs) * m_pi_gap) by ring. rewrite exp_plus.
      rewrite <- Rmult_assoc, <- (Rmult_assoc (nich_closed _ _ _ _ _)), (STEP g v s vs Hc HS E). reflexivity.
  Qed.

  (** mean and standard deviation asked of std::normal_distribution *)
  Definition std_normal (d : std_draw R) : R * R := match d with SNormal m s => (m, s) | _ => (0, 0) end.
  Theorem nich_draws dl (sh : nich_shared R) g : is_log_gamma lg ->
    0 < ni_kappa sh -> 0 < ni_nu sh -> 0 < ni_sigmasq sh -> (0 <= ni_count g)%Z -> 0 <= ni_ctv g ->
    normal_draws_follow [(ni_nu sh + IZR (ni_count g)) / 2]
      (fun gam => std_normal (snd (nich_sampler_init gam sh g)))
      (fun gam m => std_normal (nich_sampler_eval m (fst (nich_sampler_init gam sh g))))
      (fun vs r => exists q, predicted (fun g v s => nich_score_value sh g v = s) (fun g v g' => nich_add dl sh g v = Ok g') g vs q /\
         r = q * exp (- (INR (length vs) * m_pi_gap))).
  Proof using Type.
    intros HG Hk Hn Hs Hc Hv. pose proof (IZR_le _ _ Hc) as Hc'.
    set (p := nich_plus_group sh g). assert (ni_nu p = ni_nu sh + IZR (ni_count g)) as En by reflexivity.
    assert (0 < ni_nu p) as Pn by lra. assert (0 < ni_kappa p) as Pk by (change (0 < ni_kappa sh + IZR (ni_count g)); lra).
    assert (0 < post_S p) as PS.
    { unfold post_S, p, nich_plus_group. cbn [ni_nu ni_sigmasq nof nlit nadd nsub nmul ndiv NumR]. set (n := IZR (ni_count g)) in *.
      assert (0 < ni_nu sh * ni_sigmasq sh) by (now apply Rmult_lt_0_compat).
      assert (0 <= n * ni_kappa sh * (ni_mu sh - ni_mean g) * (ni_mu sh - ni_mean g) / (ni_kappa sh + n)) as HT.
      { apply Rmult_le_pos; [| left; apply Rinv_0_lt_compat; lra]. rewrite Rmult_assoc. apply Rmult_le_pos; [apply Rmult_le_pos; lra |]. apply Rle_0_sqr. }
      rewrite ?Rdiv_1. match type of HT with 0 <= ?t => set (T := t) in * end. replace ((ni_nu sh + n) * (1 / (ni_nu sh + n) * (ni_nu sh * ni_sigmasq sh + ni_ctv g + T)) / 2)
        with ((ni_nu sh * ni_sigmasq sh + ni_ctv g + T) / 2) by (field; lra). lra. }
    exists (fun xs vs => normal_joint (ni_mu p) (ni_kappa p) (sqrt (post_S p / nth 0 xs 0)) vs). split.
    - intros gam HP vs. cbn [draws_from nth]. rewrite <- En. pose proof (HP 0%nat (ni_nu p / 2) ltac:(lra)) as Px. set (x := gam 0%nat (ni_nu p / 2)) in *.
      unfold nich_sampler_init, nich_sampler_eval, sample_normal, sample_chisq, std_normal. fold p. cbn [fst snd nof nmul ndiv nsqrt NumR]. fold x.
      replace (ni_nu p * ni_sigmasq p / (x * 2)) with (post_S p / x) by (unfold post_S; field; lra).
      assert (0 < post_S p / x) as PQ by (now apply Rdiv_lt_0_compat).
      rewrite sqrt_div by lra. apply normal_joint_mean; [now apply sqrt_lt_R0 | exact Pk].
    - intros vs r (q & HL & ->). rewrite (nich_joint dl sh vs g q Hn Hk Hc PS HL). fold p.
      rewrite Rmult_assoc, <- exp_plus, Rplus_opp_r, exp_0, Rmult_1_r. rewrite <- En. now apply nich_mean.
  Qed.
End S.
