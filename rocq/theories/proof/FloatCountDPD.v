(** DirichletProcessDiscrete::score_data in single precision. *)
From Coq Require Import List Reals Lra ZArith Lia Bool.
From Flocq Require Import Core BinarySingleNaN Binary Bits.
From Verif.model Require Import Base Num Sparse DPD FastExp FloatNum FastLog FastLgamma FloatStirling Student FloatCount.
From Verif.spec Require Import LogSpec DrawSpec StudentSpec CountSpec.
From Verif.proof Require Import LnBounds FastExpProof FloatScoresProof FastLogProof FloatRel FloatStirlingApprox FloatPredictive FloatCountScores FloatCountModels FloatCountDD FloatNichProof.
From stdpp Require Import gmap.
Local Open Scope R_scope.

Section DPD.
  Variables (tbl : list Z) (lg : R -> R) (daz : bool) (libm log2 sq : binary32 -> binary32) (pw : binary32 -> binary32 -> binary32).
  Hypothesis HG : is_log_gamma lg.
  Hypothesis HL : good_lgammaf lg libm.
  Notation NC := (NC tbl daz libm log2 sq pw).
  Notation lgam := (lgam daz libm).
  Notation fT := (fT lg).
  Notation fV := (fV lg).

  Section Process.
    Variables (dl : nat) (sh : dpd_shared binary32).
    Let alpha := b2r (dp_alpha sh).
    Definition cell (vc : Z * Z) (b : binary32) : Prop :=
      dp_betas sh !! vc.1 = Some b /\ (0 <= vc.2)%Z /\ is_finite 24 128 b = true /\ 0 < b2r b /\ btw (-20) 20 (alpha * b2r b).
    Definition prior (b : binary32) : R := alpha * b2r b.
    Hypothesis Ma : moderate (dp_alpha sh).

    Lemma dpd_loop : forall order bs, List.Forall2 cell order bs ->
      forall score k T W V, est (derr (INR k) T W) T score V -> 0 <= W -> T <= 14 * W + 90 * INR k ->
      let al := map prior bs in let cs := map snd order in let W' := W + (2 * pair_sum fA al cs + pair_sum fN al cs) in
      W' <= 2097152 -> pair_sum fA al cs + pair_sum fN al cs <= 1048576 -> (Z.of_nat (k + length order) <= 1024)%Z ->
      exists s, dpd_score_loop (N:=NC) dl sh order score = Ok s /\
        est (derr (INR (k + length order)) (T + pair_sum fT al cs) W') (T + pair_sum fT al cs) s (V + pair_sum fV al cs) /\
        T + pair_sum fT al cs <= 14 * W' + 90 * INR (k + length order).
    Proof using HG HL Ma.
      intros order bs F. induction F as [| [v c] b order bs C F IH]; intros score k T W V E PW HT al cs W' HW HS HK.
      - exists score. split; [reflexivity |]. unfold W', al, cs. cbn [map pair_sum length]. rewrite !Nat.add_0_r, !Rplus_0_r. replace (W + 2 * 0) with W by ring. split; [exact E | exact HT].
      - unfold W', al, cs in *. clear W' al cs. cbn [map pair_sum length snd] in *. destruct C as (Cb & Cc & Fb & Pb & Bp). cbn [fst snd] in Cb, Cc. fold (prior b) in Bp.
        set (al := map prior bs) in *. set (cs := map snd order) in *.
        assert (0 <= IZR c) as Rc by (apply (IZR_le 0); lia). pose proof (btw_pos _ _ _ Bp) as Pp.
        assert (0 <= pair_sum fA al cs) as PA.
        { apply pair_nonneg. intros x y Ix _. unfold al in Ix. apply in_map_iff in Ix. destruct Ix as (b' & <- & Ib). clear - F Ib Ma. induction F as [| vc b0 order bs C F IH]; [destruct Ib |]. destruct Ib as [<- | Ib]; [| now apply IH]. destruct C as (_ & _ & _ & _ & B). unfold fA. pose proof (btw_pos _ _ _ B). unfold prior. lra. }
        assert (0 <= pair_sum fN al cs) as PN.
        { apply pair_nonneg. intros x y _ Iy. unfold cs in Iy. apply in_map_iff in Iy. destruct Iy as (vc & <- & Iv). clear - F Iv. induction F as [| vc0 b0 order bs C F IH]; [destruct Iv |]. destruct Iv as [<- | Iv]; [| now apply IH]. destruct C as (_ & C & _). unfold fN. apply (IZR_le 0). exact C. }
        assert (fA (prior b) c = prior b) as EA by reflexivity. assert (fN (prior b) c = IZR c) as EN by reflexivity. rewrite EA, EN in *.
        assert (near 1 (b32_mult mode_NE (dp_alpha sh) b) (prior b)) as Np.
        { replace 1 with (0 + 0 + 1) by ring. apply near_mul; [apply self_near; exact Ma | now apply near_self | lra | apply (btw_usual _ _ _ Bp); lia]. }
        assert (prior b + IZR c <= bpow radix2 20) as U by (change (bpow radix2 20) with 1048576; lra).
        destruct (grow_near 1 _ _ c Np ltac:(lra) ltac:(lra) Bp Cc U) as [Nc Bc].
        destruct (lg_est lg daz libm HG HL _ _ _ Np ltac:(lra) Bp) as (E1 & _ & R1). destruct (lg_est lg daz libm HG HL _ _ _ Nc ltac:(lra) Bc) as (E2 & _ & R2).
        pose proof (lg_lin lg HG _ Bp) as M1. pose proof (lg_lin lg HG _ Bc) as M2.
        assert (0 <= INR k <= 1023) as Rk by (split; [apply pos_INR | rewrite INR_IZR_INZ; apply IZR_le; lia]).
        assert (0 <= T) as PT by apply E. pose proof (derr_mag (INR k) T W ltac:(lra) ltac:(lra) ltac:(lra)) as DM.
        pose proof (Rabs_pos (lg (prior b))). pose proof (Rabs_pos (lg (prior b + IZR c))).
        pose proof (est_minus _ _ _ _ _ _ _ _ E2 E1 ltac:(lra)) as S1.
        assert (fT (prior b) c = Rabs (lg (prior b + IZR c)) + Rabs (lg (prior b))) as ET by reflexivity.
        pose proof (derr_step (INR k) T W (fT (prior b) c) (2 * prior b + IZR c) ltac:(lra) PT PW ltac:(lra) ltac:(lra)) as DS. cbv zeta in DS.
        pose proof (est_plus _ _ _ _ _ _ _ _ E S1 ltac:(lra)) as S2.
        cbn [dpd_score_loop]. unfold sp_get, sp_find. rewrite Cb. cbn [obind].
        destruct (IH (b32_plus mode_NE score (b32_minus mode_NE (lgam (b32_plus mode_NE (b32_mult mode_NE (dp_alpha sh) b) (float_of_int c))) (lgam (b32_mult mode_NE (dp_alpha sh) b)))) (S k) (T + fT (prior b) c) (W + (2 * prior b + IZR c)) (V + fV (prior b) c)) as (s & Run & Es & Hs).
        + rewrite S_INR. eapply est_weaken; [exact S2 | | rewrite ET; lra]. eapply Rle_trans; [| exact DS]. rewrite ET. lra.
        + lra.
        + rewrite S_INR, ET. lra.
        + lra.
        + lra.
        + lia.
        + exists s. split; [exact Run |]. replace (k + S (length order))%nat with (S k + length order)%nat by lia.
          replace (T + (fT (prior b) c + pair_sum fT al cs)) with (T + fT (prior b) c + pair_sum fT al cs) by ring. replace (V + (fV (prior b) c + pair_sum fV al cs)) with (V + fV (prior b) c + pair_sum fV al cs) by ring.
          replace (W + (2 * (prior b + pair_sum fA al cs) + (IZR c + pair_sum fN al cs))) with (W + (2 * prior b + IZR c) + (2 * pair_sum fA al cs + pair_sum fN al cs)) by ring. split; [exact Es | exact Hs].
    Qed.

    Lemma dpd_data g order bs t : List.Forall2 cell order bs -> ctr_get_total g = Ok t ->
      let al := map prior bs in let cs := map snd order in let n := INR (length order) in
      IZR t = pair_sum fN al cs -> (Z.of_nat (length order) <= 1024)%Z -> alpha + IZR t <= bpow radix2 20 -> pair_sum fA al cs + IZR t <= bpow radix2 20 ->
      exists s, dpd_score_data (N:=NC) dl sh g order = Ok s /\ is_finite 24 128 s = true /\
      Rabs (b2r s - dp_data lg alpha al cs) <= (6 / 1000000 + / 10000000 * n) * dp_size lg alpha al cs + / 10000 * (alpha + pair_sum fA al cs + IZR t) + / 1000 * (n + 1).
    Proof using HG HL Ma.
      intros F Ht al cs n Et Hn U1 U2.
      assert (0 <= IZR t) as Pt.
      { rewrite Et. apply pair_nonneg. intros x y _ Iy. unfold cs in Iy. apply in_map_iff in Iy. destruct Iy as (vc & <- & Iv). clear - F Iv. induction F as [| vc0 b0 order bs C F IH]; [destruct Iv |]. destruct Iv as [<- | Iv]; [| now apply IH]. destruct C as (_ & C & _). unfold fN. apply (IZR_le 0). exact C. }
      assert (0 <= pair_sum fA al cs) as PA.
      { apply pair_nonneg. intros x y Ix _. unfold al in Ix. apply in_map_iff in Ix. destruct Ix as (b' & <- & Ib). clear - F Ib Ma. induction F as [| vc b0 order bs C F IH]; [destruct Ib |]. destruct Ib as [<- | Ib]; [| now apply IH]. destruct C as (_ & _ & _ & _ & B). unfold fA. pose proof (btw_pos _ _ _ B). unfold prior. lra. }
      destruct (self_near _ Ma) as [Na Ba]. fold alpha in Na, Ba. pose proof (btw_pos _ _ _ Ba) as Pa.
      assert (0 <= t <= 1048576)%Z as Zt by (split; apply le_IZR; [exact Pt |]; change (bpow radix2 20) with 1048576 in U1; lra).
      destruct (post_near (dp_alpha sh) t Ma ltac:(lia) U1) as (Nt & Bt & _). fold alpha in Nt, Bt.
      destruct (lg_est lg daz libm HG HL _ _ _ Na ltac:(lra) Ba) as (E1 & _ & R1). destruct (lg_est lg daz libm HG HL _ _ _ Nt ltac:(lra) Bt) as (E2 & _ & R2).
      pose proof (lg_lin lg HG _ Ba) as M1. pose proof (lg_lin lg HG _ Bt) as M2. change (bpow radix2 20) with 1048576 in U1, U2.
      destruct (dpd_loop order bs F (float_of_int 0) 0 0 0 0) as (s & Run & Es & Hs).
      { unfold derr. cbn [INR]. split; [destruct (app_int 0 ltac:(lia)) as [F0 Q]; split; [exact F0 |]; lra |]. rewrite Rabs_R0. lra. }
      { lra. } { cbn [INR]. lra. } { fold al cs. rewrite <- Et. lra. } { fold al cs. rewrite <- Et. lra. } { exact Hn. }
      cbv zeta in Es, Hs. fold al cs in Es, Hs. cbn [Nat.add] in Es, Hs. fold n in Es, Hs. rewrite !Rplus_0_l, <- Et in Es, Hs.
      unfold dpd_score_data. rewrite Ht. cbn [obind]. cbn [nof NC NumC NumB FloatCountModels.NC]. rewrite Run. cbn [obind]. eexists. split; [reflexivity |].
      assert (as_size t = t) as -> by (unfold as_size; apply Z.mod_small; lia).
      set (T := pair_sum fT al cs) in *. assert (0 <= T) as PT by apply Es. assert (0 <= n <= 1024) as Rn by (split; [apply pos_INR | unfold n; rewrite INR_IZR_INZ; apply IZR_le; lia]).
      set (A := pair_sum fA al cs) in *. pose proof (derr_mag n T (2 * A + IZR t) ltac:(lra) ltac:(lra) ltac:(lra)) as DM. pose proof (Rabs_pos (lg alpha)). pose proof (Rabs_pos (lg (alpha + IZR t))).
      pose proof (est_minus _ _ _ _ _ _ _ _ E1 E2 ltac:(lra)) as S1. pose proof (est_plus _ _ _ _ _ _ _ _ Es S1 ltac:(lra)) as S2.
      cbn [nof nlgamma nadd nsub NumC NumB]. fold (lgam (dp_alpha sh)). fold (lgam (b32_plus mode_NE (dp_alpha sh) (float_of_int t))).
      destruct S2 as ([F2 S2] & _). split; [exact F2 |]. unfold dp_data, dp_size. change (pair_sum (fun (_ : R) (c : Z) => IZR c) al cs) with (pair_sum fN al cs). rewrite <- Et.
      change (pair_sum (fun (a : R) (c : Z) => lg (a + IZR c) - lg a) al cs) with (pair_sum fV al cs). change (pair_sum (fun (a : R) (c : Z) => Rabs (lg (a + IZR c)) + Rabs (lg a)) al cs) with T.
      match type of S2 with Rabs (_ - ?u) <= _ => match goal with |- Rabs (_ - ?v) <= _ => replace v with u by ring end end. eapply Rle_trans; [exact S2 |].
      unfold derr in *. assert (0 <= n * T <= 1024 * T) by (split; [apply Rmult_le_pos | apply Rmult_le_compat_r]; lra).
      assert (0 <= n * Rabs (lg alpha)) by (apply Rmult_le_pos; lra). assert (0 <= n * Rabs (lg (alpha + IZR t))) by (apply Rmult_le_pos; lra).
      assert (0 <= n * A <= 1024 * A) by (split; [apply Rmult_le_pos | apply Rmult_le_compat_r]; lra). assert (0 <= n * IZR t <= 1024 * IZR t) by (split; [apply Rmult_le_pos | apply Rmult_le_compat_r]; lra).
      replace ((6 / 1000000 + / 10000000 * n) * (Rabs (lg alpha) + Rabs (lg (alpha + IZR t)) + T)) with (6 / 1000000 * (Rabs (lg alpha) + Rabs (lg (alpha + IZR t)) + T) + / 10000000 * (n * Rabs (lg alpha) + n * Rabs (lg (alpha + IZR t)) + n * T)) by ring.
      replace (n * (2 * A + IZR t)) with (2 * (n * A) + n * IZR t) in * by ring.
      generalize dependent (n * A). generalize dependent (n * IZR t). generalize dependent (n * T). generalize dependent (n * Rabs (lg alpha)). generalize dependent (n * Rabs (lg (alpha + IZR t))). intros. lra.
    Qed.
  End Process.
End DPD.
