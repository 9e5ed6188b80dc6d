(** log_sum_exp in single precision. *)
From Coq Require Import Reals Lra ZArith Lia List.
From Flocq Require Import Core BinarySingleNaN Binary Bits.
From Verif.model Require Import Base Num FastExp FloatNum FastLog VectorMath Random FloatLse.
From Verif.spec Require Import ExpSpec PartitionSpec RandomSpec VectorSpec FloatSpec LogSpec LseSpec.
From Verif.proof Require Import LnBounds FastExpProof RandomProof FloatScoresProof FastLogProof FloatRel VectorProof BaseProof.
Import ListNotations.
Local Open Scope R_scope.

Lemma max_min x y : fin x = true -> fin y = true ->
  fin (max32 x y) = true /\ fin (min32 x y) = true /\ b2r (max32 x y) = Rmax (b2r x) (b2r y) /\ b2r (min32 x y) = Rmin (b2r x) (b2r y) /\
  b2r (min32 x y) <= b2r (max32 x y).
Proof.
  intros Fx Fy. unfold max32, min32. destruct (b32_ltb x y) eqn:C.
  - apply ltb_ok in C; try assumption. rewrite Rmax_right, Rmin_left by lra. repeat split; try assumption; lra.
  - assert (b2r y <= b2r x) as L. { destruct (Rle_or_lt (b2r y) (b2r x)) as [L | L]; [exact L |]. apply ltb_ok in L; try assumption. congruence. }
    rewrite Rmax_left, Rmin_right by lra. repeat split; try assumption; lra.
Qed.

Lemma lse_shift X Y : ln (exp X + exp Y) = Rmax X Y + ln (1 + exp (Rmin X Y - Rmax X Y)).
Proof.
  assert (forall a b, ln (exp a + exp b) = a + ln (1 + exp (b - a))) as G.
  { intros a b. rewrite <- (ln_exp a) at 2. rewrite <- ln_mult; [| apply exp_pos | pose proof (exp_pos (b - a)); lra].
    f_equal. rewrite Rmult_plus_distr_l, Rmult_1_r, <- exp_plus. do 2 f_equal. ring. }
  destruct (Rle_or_lt X Y) as [L | L].
  - rewrite Rmax_right, Rmin_left by exact L. rewrite Rplus_comm. apply G.
  - rewrite Rmax_left, Rmin_right by lra. apply G.
Qed.

(** 1 + e, where e is close to E in [0, 1]. *)
Lemma one_plus e E h : fin e = true -> 0 <= b2r e -> 0 <= E <= 1 -> 0 <= h <= / 8 -> Rabs (b2r e - E) <= h ->
  let s := b32_plus mode_NE (float_of_int 1) e in
  fin s = true /\ 1 <= b2r s <= 3 /\ Rabs (ln (b2r s) - ln (1 + E)) <= h + / 4000000.
Proof.
  intros Fe Pe HE Hh H s. destruct (int_ok 1 eq_refl) as [V1 F1]. apply Rabs_le_inv in H.
  assert (bpow radix2 2 <= bpow radix2 127) as HB by (apply bpow_le; lia). change (bpow radix2 2) with 4 in HB.
  destruct (plus_ok (float_of_int 1) e F1 Fe) as [Es Fs]. { rewrite V1. apply Rabs_le. lra. }
  fold s in Es, Fs. rewrite V1 in Es. pose proof (rnd_err (1 + b2r e)) as R. rewrite <- Es in R. rewrite (Rabs_pos_eq (1 + b2r e)) in R by lra.
  assert (eta32 <= / 100000000) as He by (pose proof eta32_pos; lra). unfold u24 in R.
  assert (1 <= b2r s) as L1. { rewrite Es. rewrite <- V1 at 1. rewrite <- (rnd_same (float_of_int 1)). apply rnd_le. rewrite V1. lra. }
  split; [exact Fs |]. apply Rabs_le_inv in R. split; [lra |].
  assert (Rabs (b2r s - (1 + E)) <= h + / 4000000) as D by (apply Rabs_le; lra). apply Rabs_le_inv in D.
  pose proof (ln_sub (1 + E) (b2r s) ltac:(lra) ltac:(lra)) as U. pose proof (ln_sub (b2r s) (1 + E) ltac:(lra) ltac:(lra)) as W.
  assert (forall a d, 1 <= a -> 0 <= h + / 4000000 -> d <= h + / 4000000 -> d / a <= h + / 4000000) as Q.
  { intros a d Ha Hp Hd. apply Rmult_le_reg_r with a; [lra |]. unfold Rdiv. rewrite Rmult_assoc, Rinv_l by lra. nra. }
  pose proof (Q (1 + E) (b2r s - (1 + E)) ltac:(lra) ltac:(lra) ltac:(lra)). pose proof (Q (b2r s) ((1 + E) - b2r s) L1 ltac:(lra) ltac:(lra)).
  apply Rabs_le. lra.
Qed.

(** Adding a logarithm of at most 20 to a float. *)
Lemma add_log m l L eps : fin m = true -> fin l = true -> Rabs (b2r m) <= 1000000000 -> 0 <= L <= 20 -> 0 <= eps <= 1 -> Rabs (b2r l - L) <= eps ->
  fin (b32_plus mode_NE m l) = true /\ Rabs (b2r (b32_plus mode_NE m l) - (b2r m + L)) <= eps + Rabs (b2r m) / 16000000 + / 700000.
Proof.
  intros Fm Fl Hm HL He H. pose proof H as H'. apply Rabs_le_inv in H'. pose proof (Rabs_le_inv _ _ Hm) as Hm'.
  assert (bpow radix2 40 <= bpow radix2 127) as HB by (apply bpow_le; lia). change (bpow radix2 40) with 1099511627776 in HB.
  destruct (plus_ok m l Fm Fl) as [E F]. { apply Rabs_le. lra. } split; [exact F |].
  pose proof (rnd_err (b2r m + b2r l)) as R. rewrite <- E in R.
  assert (Rabs (b2r m + b2r l) <= Rabs (b2r m) + 21) as T. { eapply Rle_trans; [apply Rabs_triang |]. apply Rplus_le_compat_l. apply Rabs_le. lra. }
  assert (eta32 <= / 1000000000) as Ht by (pose proof eta32_pos; lra). pose proof (Rabs_pos (b2r m)) as Pm.
  replace (b2r (b32_plus mode_NE m l) - (b2r m + L)) with ((b2r (b32_plus mode_NE m l) - (b2r m + b2r l)) + (b2r l - L)) by ring.
  eapply Rle_trans; [apply Rabs_triang |]. unfold u24 in R. lra.
Qed.

Lemma ln_le_2 z : 0 < z <= 3 -> ln z <= 2.
Proof. intros H. pose proof (exp_ineq1_le (ln z)) as E. rewrite exp_ln in E by lra. lra. Qed.

Lemma obind_ok {A B : Type} (o : outcome A) (a : A) (f : A -> outcome B) : o = Ok a -> obind o f = f a.
Proof. intros ->. reflexivity. Qed.
Lemma fast_lse_run tbl log2 x y e l : fast_exp tbl (b32_minus mode_NE (min32 x y) (max32 x y)) = Ok e ->
  fast_log_run log2 (b32_plus mode_NE (float_of_int 1) e) = Ok l -> fast_lse tbl log2 x y = Ok (b32_plus mode_NE (max32 x y) l).
Proof. intros A B. etransitivity; [exact (obind_ok _ _ _ A) |]. exact (obind_ok _ _ _ B). Qed.

Lemma fast_lse_b32 tbl log2 x y : faithful_table tbl -> good_log2 log2 -> fin x = true -> fin y = true ->
  Rabs (b2r x) <= 500000000 -> Rabs (b2r y) <= 500000000 ->
  exists r, fast_lse tbl log2 x y = Ok r /\ fin r = true /\
    Rabs (b2r r - ln (exp (b2r x) + exp (b2r y))) <= / 9500 + Rmax (Rabs (b2r x)) (Rabs (b2r y)) / 16000000.
Proof.
  intros HT HL Fx Fy Hx Hy. destruct (max_min x y Fx Fy) as (FM & Fm & EM & Em & Le). rewrite lse_shift, <- EM, <- Em.
  assert (Rabs (b2r (max32 x y)) <= Rmax (Rabs (b2r x)) (Rabs (b2r y))) as HM.
  { rewrite EM. destruct (Rle_or_lt (b2r x) (b2r y)) as [L | L]; [rewrite Rmax_right by exact L; apply Rmax_r | rewrite Rmax_left by lra; apply Rmax_l]. }
  assert (Rmax (Rabs (b2r x)) (Rabs (b2r y)) <= 500000000) as HM2 by (apply Rmax_lub; assumption).
  assert (Rabs (b2r (min32 x y)) <= 500000000) as Hm2.
  { rewrite Em. destruct (Rle_or_lt (b2r x) (b2r y)) as [L | L]; [rewrite Rmin_left by exact L; assumption | rewrite Rmin_right by lra; assumption]. }
  pose proof (fast_lse_run tbl log2 x y) as RUN. generalize dependent (max32 x y). intros M FM EM Le HM RUN. generalize dependent (min32 x y). intros m Fm Em Hm2 Le RUN.
  destruct (item tbl m M HT Fm FM Hm2 ltac:(lra) Le) as (e & Ee & It).
  assert (item_spec tbl M m e) as IS by (split; [exact Ee | exact It]).
  destruct (item_close tbl M m e Le IS) as [Cl _]. destruct It as (Fe & Pe & _).
  set (E := exp (b2r m - b2r M)) in *.
  assert (0 <= E <= 1) as HE. { unfold E. split; [left; apply exp_pos | rewrite <- exp_0; apply exp_le; lra]. }
  assert (Rabs (b2r e - E) <= 22 / 1000000) as H1 by (pose proof tiny_pos; unfold kap in Cl; lra).
  destruct (one_plus e E (22 / 1000000) Fe Pe HE ltac:(lra) H1) as (Fs & Rs & Ls).
  specialize (RUN e). generalize dependent (b32_plus mode_NE (float_of_int 1) e). intros s RUN Fs Rs Ls.
  destruct (log_run log2 s HL Fs) as (l & El & Fl & Bl). { apply Rle_trans with (bpow radix2 0); [apply bpow_le; lia | change (bpow radix2 0) with 1; lra]. }
  specialize (RUN l Ee El). exists (b32_plus mode_NE M l). split; [exact RUN |].
  destruct (add_log M l (ln (1 + E)) (100 / 1000000) FM Fl ltac:(lra)) as [Fr Hr].
  - split; [rewrite <- ln_1; apply ln_le'; lra | apply Rle_trans with 2; [apply ln_le_2; lra | lra]].
  - lra.
  - apply Rabs_le_inv in Ls. apply Rabs_le. lra.
  - split; [exact Fr |]. eapply Rle_trans; [exact Hr |]. lra.
Qed.

(** exp of a rounded argument *)
Lemma exp_rnd d : d <= 0 -> Rabs d <= 2000000000 -> rnd d <= 0 /\ Rabs (exp (rnd d) - exp d) <= / 12000000.
Proof.
  intros Hd Hb. assert (rnd d <= 0) as N. { rewrite <- rnd_0. now apply rnd_le. } split; [exact N |].
  pose proof (rnd_err d) as R. rewrite (Rabs_left1 d) in R by exact Hd. assert (eta32 <= / 1000000000) as He by (pose proof eta32_pos; lra). unfold u24 in R.
  set (r := rnd d) in *. clearbody r. apply Rabs_le_inv in R.
  assert (forall a b, a <= b -> b <= d / 2 + / 1000000000 -> b - a <= / 16777216 * - d + / 1000000000 -> 0 <= exp b - exp a <= / 12000000) as G.
  { intros a b L Hbd Hba. assert (exp a <= exp b) as M by (apply exp_le; lra). split; [lra |].
    assert (exp b - exp a <= (b - a) * exp b) as D.
    { pose proof (exp_ineq1_le (a - b)) as Q. replace (exp a) with (exp b * exp (a - b)) by (rewrite <- exp_plus; f_equal; ring). pose proof (exp_pos b). nra. }
    assert (exp b <= exp (/ 1000000000) * exp (d / 2)) as Eb by (rewrite <- exp_plus; apply exp_le; lra).
    assert (exp (/ 1000000000) <= 101 / 100) as E1.
    { pose proof (exp_ineq1_le (- / 1000000000)) as Q. rewrite exp_Ropp in Q. pose proof (exp_pos (/ 1000000000)) as P.
      apply Rmult_le_reg_r with (/ exp (/ 1000000000)); [now apply Rinv_0_lt_compat |]. rewrite Rinv_r by lra. lra. }
    assert (- d * exp (d / 2) <= 1) as E2.
    { pose proof (exp_ineq1_le (- d / 2)) as Q. assert (exp (d / 2) * exp (- d / 2) = 1) as I by (rewrite <- exp_plus; replace (d / 2 + - d / 2) with 0 by lra; apply exp_0).
      pose proof (exp_pos (d / 2)) as P.
      pose proof (exp_ineq1_le (- d / 4)) as Q4. assert (exp (- d / 2) = exp (- d / 4) * exp (- d / 4)) as I4 by (rewrite <- exp_plus; f_equal; lra).
      assert (- d <= exp (- d / 2)) as Q5. { rewrite I4. set (t := exp (- d / 4)) in *. pose proof (Rle_0_sqr (1 + d / 4)) as S. unfold Rsqr in S.
        assert ((1 - d / 4) * (1 - d / 4) <= t * t) by (apply Rmult_le_compat; lra). lra. }
      rewrite <- I, (Rmult_comm (- d)). apply Rmult_le_compat_l; lra. }
    assert (exp (d / 2) <= 1) as E3 by (rewrite <- exp_0; apply exp_le; lra). pose proof (exp_pos (d / 2)) as P.
    assert (exp b <= 101 / 100 * exp (d / 2)) as Eb2 by (eapply Rle_trans; [exact Eb | apply Rmult_le_compat_r; lra]).
    assert ((b - a) * exp b <= (/ 16777216 * - d + / 1000000000) * (101 / 100 * exp (d / 2))) as F1 by (pose proof (exp_pos b); apply Rmult_le_compat; lra). lra. }
  destruct (Rle_or_lt r d) as [L | L].
  - pose proof (G r d L ltac:(lra) ltac:(lra)). apply Rabs_le. lra.
  - pose proof (G d r ltac:(lra) ltac:(lra) ltac:(lra)). apply Rabs_le. lra.
Qed.

(** expf and logf in place of the fast functions *)
Lemma lse_b32 expf logf x y : good_expf expf -> good_logf logf -> fin x = true -> fin y = true ->
  Rabs (b2r x) <= 500000000 -> Rabs (b2r y) <= 500000000 ->
  fin (lse32 expf logf x y) = true /\
    Rabs (b2r (lse32 expf logf x y) - ln (exp (b2r x) + exp (b2r y))) <= / 400000 + Rmax (Rabs (b2r x)) (Rabs (b2r y)) / 16000000.
Proof.
  intros [HE _] HL Fx Fy Hx Hy. destruct (max_min x y Fx Fy) as (FM & Fm & EM & Em & Le). rewrite lse_shift, <- EM, <- Em.
  assert (Rabs (b2r (max32 x y)) <= Rmax (Rabs (b2r x)) (Rabs (b2r y))) as HM.
  { rewrite EM. destruct (Rle_or_lt (b2r x) (b2r y)) as [L | L]; [rewrite Rmax_right by exact L; apply Rmax_r | rewrite Rmax_left by lra; apply Rmax_l]. }
  assert (Rmax (Rabs (b2r x)) (Rabs (b2r y)) <= 500000000) as HM2 by (apply Rmax_lub; assumption).
  assert (Rabs (b2r (min32 x y)) <= 500000000) as Hm2.
  { rewrite Em. destruct (Rle_or_lt (b2r x) (b2r y)) as [L | L]; [rewrite Rmin_left by exact L; assumption | rewrite Rmin_right by lra; assumption]. }
  unfold lse32. set (M := max32 x y) in *. set (m := min32 x y) in *.
  pose proof (Rabs_le_inv _ _ (Rle_trans _ _ _ HM HM2)) as B1. pose proof (Rabs_le_inv _ _ Hm2) as B2.
  assert (bpow radix2 40 <= bpow radix2 127) as HB by (apply bpow_le; lia). change (bpow radix2 40) with 1099511627776 in HB.
  destruct (minus_ok m M Fm FM) as [Ed Fd]. { apply Rabs_le. lra. }
  destruct (exp_rnd (b2r m - b2r M) ltac:(lra)) as [Nd Xd]. { apply Rabs_le. lra. } rewrite <- Ed in Nd, Xd.
  set (d := b32_minus mode_NE m M) in *. destruct (HE d Fd Nd) as (Fe & Re & Ce). set (e := expf d) in *. fold (b2r d) (b2r e) in *.
  set (E := exp (b2r m - b2r M)) in *.
  assert (0 <= E <= 1) as HE1. { unfold E. split; [left; apply exp_pos | rewrite <- exp_0; apply exp_le; lra]. }
  assert (exp (b2r d) <= 1) as HE2 by (rewrite <- exp_0; apply exp_le; lra).
  assert (bpow radix2 (-149) <= / 1000000000) as Ht by (pose proof tiny_pos; unfold tiny in *; apply Rle_trans with (bpow radix2 (-124)); [apply bpow_le; lia | lra]).
  assert (Rabs (b2r e - E) <= 21 / 100000000) as H1 by (apply Rabs_le_inv in Ce; apply Rabs_le_inv in Xd; apply Rabs_le; lra).
  destruct (one_plus e E (21 / 100000000) Fe (proj1 Re) HE1 ltac:(lra) H1) as (Fs & Rs & Ls).
  set (s := b32_plus mode_NE (float_of_int 1) e) in *.
  destruct (HL s Fs (proj1 Rs)) as [Fl Bl]. fold (b2r s) (b2r (logf s)) in Bl. pose proof (ln_le_2 (b2r s) ltac:(lra)) as L2.
  assert (0 <= ln (b2r s)) as L0 by (rewrite <- ln_1; apply ln_le'; lra).
  destruct (add_log M (logf s) (ln (1 + E)) (8 / 10000000) FM Fl ltac:(lra)) as [Fr Hr].
  - split; [rewrite <- ln_1; apply ln_le'; lra | apply Rle_trans with 2; [apply ln_le_2; lra | lra]].
  - lra.
  - apply Rabs_le_inv in Ls. apply Rabs_le_inv in Bl. apply Rabs_le. lra.
  - split; [exact Fr |]. eapply Rle_trans; [exact Hr |]. lra.
Qed.

(** The second argument minus infinity: the first comes back, up to the rounding of log 1 (nothing). *)
Lemma lse_minf expf logf x : good_expf expf -> good_logf logf -> fin x = true -> Rabs (b2r x) <= 500000000 ->
  fin (lse32 expf logf x (B754_infinity 24 128 true)) = true /\ b2r (lse32 expf logf x (B754_infinity 24 128 true)) = b2r x.
Proof.
  intros [_ HE] HL Fx Hx. unfold lse32.
  assert (max32 x (B754_infinity 24 128 true) = x /\ min32 x (B754_infinity 24 128 true) = B754_infinity 24 128 true) as [-> ->]
    by (unfold max32, min32; destruct x as [[|] | | | [|] ? ? ?]; try discriminate Fx; split; reflexivity).
  assert (b32_minus mode_NE (B754_infinity 24 128 true) x = B754_infinity 24 128 true) as -> by (destruct x as [[|] | | | [|] ? ? ?]; try discriminate Fx; reflexivity).
  rewrite HE. destruct (int_ok 1 eq_refl) as [V1 F1]. destruct (plus_ok (float_of_int 1) (B754_zero 24 128 false) F1 eq_refl) as [Es Fs].
  { rewrite V1. cbn. rewrite Rplus_0_r, Rabs_R1. apply (bpow_le radix2 0 127). lia. }
  set (s := b32_plus _ _ _) in *. assert (b2r s = 1) as Vs. { rewrite Es. cbn [b2r B2R]. rewrite Rplus_0_r, rnd_same. exact V1. }
  destruct (HL s Fs) as [Fl Bl]. { fold (b2r s). lra. } fold (b2r s) (b2r (logf s)) in Bl. rewrite Vs, ln_1 in Bl. apply Rabs_le_inv in Bl.
  assert (b2r (logf s) = 0) as Z by lra.
  destruct (plus_ok x (logf s) Fx Fl) as [E F]. { rewrite Z, Rplus_0_r. eapply Rle_trans; [exact Hx |]. apply Rle_trans with (bpow radix2 29); [change (bpow radix2 29) with 536870912; lra | apply bpow_le; lia]. }
  split; [exact F |]. rewrite E, Z, Rplus_0_r. apply rnd_same.
Qed.

(** The vector functions reduce to the total computed by scores_to_likelihoods. *)
Section Vector.
  Context {F : Type} {N : Num F}.
  Lemma fold_map {A B C : Type} (f : C -> B -> C) (g : A -> B) l : forall t, fold_left f (map g l) t = fold_left (fun t a => f t (g a)) l t.
  Proof. induction l as [| a l IH]; intros t; cbn [map fold_left]; [reflexivity | apply IH]. Qed.
  Lemma lse_total (scores : list F) x l : scores = x :: l -> exists m ls total,
    vector_max (length scores) scores = Ok m /\ scores_to_likelihoods scores = Ok (ls, total) /\
    log_sum_exp scores = Ok (nadd (nlog total) m) /\
    forall i s, nth_error scores i = Some s -> score_from_scores_overwrite i scores = Ok (nsub (nsub s m) (nlog total)).
  Proof.
    intros E. destruct (stl_fill scores x l E) as (m & Em & El). exists m, (map (fun s => nexp (nsub s m)) scores), (fold_left nadd (map (fun s => nexp (nsub s m)) scores) (nof 0)).
    split; [exact Em |]. split; [exact El |]. split.
    - unfold log_sum_exp. replace (length scores =? 0)%nat with false by (subst; reflexivity). rewrite Em. cbn [obind].
      rewrite (vfor_fold scores (fun t s => nadd t (nexp (nsub s m)))); [| intros i s b Hs; rewrite (vget_nth _ _ _ Hs); reflexivity | lia].
      cbn [obind skipn]. rewrite firstn_all, fold_map. reflexivity.
    - intros i s Hs. unfold score_from_scores_overwrite. rewrite Em. cbn [obind].
      rewrite (vfor_fill _ (fun t v => nadd t (nexp v)) scores (map (fun s => nsub s m) scores)).
      + cbn [obind fst snd]. rewrite (vget_nth _ i (nsub s m)) by (rewrite nth_error_map, Hs; reflexivity). cbn [obind]. rewrite !fold_map. reflexivity.
      + apply map_length.
      + intros j l' t v Hl Hr Hv. rewrite nth_error_map in Hv. destruct (nth_error scores j) as [z |] eqn:Es; [| discriminate]. injection Hv as <-.
        cbn [fst snd]. rewrite (vget_nth l' j z) by (rewrite Hr; auto). cbn [obind]. rewrite vset_ok; [reflexivity |]. rewrite Hl. apply nth_error_Some. congruence.
  Qed.
End Vector.

Section VectorFloat.
  Variables (tbl : list Z) (lit : Z -> Z -> binary32) (lg lgam lgam_nu : binary32 -> binary32) (lfact : Z -> binary32)
    (sq : binary32 -> binary32) (pw : binary32 -> binary32 -> binary32).
  Hypothesis HT : faithful_table tbl.
  Let N := NumB tbl lit lg lgam lgam_nu lfact sq pw.
  Local Existing Instance N.

  (** relative error of the total *)
  Definition tot_err (n : nat) : R := 26 / 1000000 + INR n / 6500000.

  Lemma rsum_shift m (l : list binary32) : rsum (map (fun s => exp (b2r s - m)) l) = rsum (map exp (map b2r l)) * exp (- m).
  Proof. induction l as [| s l IH]; cbn [map rsum]; [lra |]. rewrite IH. unfold Rminus. rewrite exp_plus. ring. Qed.

  Lemma vec_total (l : list binary32) : good_scores l -> exists m total,
    In m l /\ (forall s, In s l -> b2r s <= b2r m) /\ fin total = true /\ / 2 <= b2r total <= 2097152 /\
    0 <= log_sum (map b2r l) - b2r m <= 14 /\
    Rabs (ln (b2r total) - (log_sum (map b2r l) - b2r m)) <= tot_err (length l) /\
    log_sum_exp l = Ok (nadd (nlog total) m) /\
    forall i s, nth_error l i = Some s -> score_from_scores_overwrite i l = Ok (nsub (nsub s m) (nlog total)).
  Proof.
    intros G. assert (exists x l0, l = x :: l0) as (x & l0 & El) by (destruct l; [destruct G as [G _]; congruence | eauto]).
    destruct (lse_total l x l0 El) as (m & ls & total & Em & Es & A & B).
    destruct (likelihoods_b32 tbl HT lit lg lgam lgam_nu lfact sq pw l G) as (m' & ls' & total' & Hin & Hm & Es' & H2 & Ft & H1 & HS).
    change (scores_to_likelihoods l = Ok (ls', total')) in Es'. rewrite Es in Es'. injection Es' as -> ->.
    destruct G as (Hne & Hn & Hl).
    assert (In m l /\ (forall s, In s l -> b2r s <= b2r m)) as [Im Mm].
    { assert (vector_max (length l) l = Ok (fold_left (fun m y => if b32_ltb m y then y else m) l0 x)) as Em'.
      { rewrite El, vector_max_fold by (cbn; lia). unfold fold_first. rewrite firstn_all. cbn [fold_left]. destruct (nltb x x); reflexivity. }
      rewrite Em' in Em. injection Em as <-. rewrite El in *.
      assert (List.Forall (fun s => fin s = true) (x :: l0)) as HF by (eapply List.Forall_impl; [| exact Hl]; cbn; tauto).
      destruct (fold_max_b32 l0 x) as (M1 & M2 & M3); [now inversion HF | now inversion HF |]. split; [exact M1 | exact M3]. }
    assert (b2r m = b2r m') as Emm by (apply Rle_antisym; auto).
    destruct (weights_sum tbl m' l ls' Hm Hin H2 Hn) as (W1 & W2 & W3). rewrite rsum_shift in W1, W2, W3.
    set (W := rsum (map exp (map b2r l)) * exp (- b2r m')) in *. set (S := rsum (map b2r ls')) in *. set (T := b2r total') in *.
    assert (ln W = log_sum (map b2r l) - b2r m) as LW.
    { unfold W. rewrite ln_mult; [| apply rsum_exp_pos; destruct l; [congruence | discriminate] | apply exp_pos]. rewrite ln_exp, Emm. unfold log_sum. ring. }
    assert (0 <= INR (length l) <= 1048576) as HN by (split; [apply pos_INR | rewrite INR_IZR_INZ; apply IZR_le; lia]).
    change (@length (binary_float 24 128) l) with (@length binary32 l) in *.
    set (n := INR (length l)) in *.
    assert (Rabs (T - W) <= (22 / 1000000 + n / 8000000 * (1 + 22 / 1000000)) * W) as D.
    { apply Rabs_le_inv in W2. assert (n / 8000000 * S <= n / 8000000 * ((1 + 22 / 1000000) * W)) as Q by (apply Rmult_le_compat_l; lra).
      replace (T - W) with ((T - S) + (S - W)) by ring. eapply Rle_trans; [apply Rabs_triang |]. assert (Rabs (S - W) <= 22 / 1000000 * W) by (apply Rabs_le; lra). lra. }
    set (h := 22 / 1000000 + n / 8000000 * (1 + 22 / 1000000)) in *.
    assert (0 <= h <= 1311 / 10000) as Hh by (unfold h; lra).
    destruct (ln_ratio W T h ltac:(lra) ltac:(lra) D) as [PT LT].
    assert (h / (1 - h) <= tot_err (length l)) as HE.
    { apply Rle_trans with (116 / 100 * h); [apply Rmult_le_reg_r with (1 - h); [lra |]; unfold Rdiv; rewrite Rmult_assoc, Rinv_l by lra; nra |].
      unfold tot_err. fold n. unfold h. lra. }
    exists m, total'. split; [exact Im |]. split; [exact Mm |]. split; [exact Ft |].
    assert (h * W <= 1311 / 10000 * W) as HW by (apply Rmult_le_compat_r; lra). apply Rabs_le_inv in D. fold T.
    split; [lra |]. rewrite <- LW. split.
    { split; [rewrite <- ln_1; apply ln_le'; lra |]. apply Rle_trans with (ln (bpow radix2 20)); [apply ln_le'; [lra |]; change (bpow radix2 20) with 1048576; lra |].
      rewrite bpow_exp, ln_exp. change (IZR 20) with 20. change (IZR radix2) with 2. pose proof ln2_hi. lra. }
    split; [lra |]. split; [exact A | exact B].
  Qed.

  Variable eps : R.
  Hypothesis Heps : 0 <= eps <= / 2.
  Hypothesis Hlg : log_within eps lg.

  Lemma good_at (l : list binary32) s : good_scores l -> In s l -> fin s = true /\ Rabs (b2r s) <= 500000000.
  Proof. intros (_ & _ & H) I. rewrite List.Forall_forall in H. exact (H s I). Qed.

  Lemma vec_lse (l : list binary32) : good_scores l -> exists m r, In m l /\ (forall s, In s l -> b2r s <= b2r m) /\
    log_sum_exp l = Ok r /\ fin r = true /\
    Rabs (b2r r - log_sum (map b2r l)) <= eps + 3 / 100000 + INR (length l) / 6500000 + Rabs (b2r m) / 16000000.
  Proof.
    intros G. destruct (vec_total l G) as (m & total & Im & Mm & Ft & Rt & LW & Et & A & _). exists m, (b32_plus mode_NE (lg total) m).
    split; [exact Im |]. split; [exact Mm |]. split; [exact A |]. destruct (good_at l m G Im) as [Fm Hm].
    destruct (Hlg total Ft Rt) as [Fl Bl]. fold (b2r total) (b2r (lg total)) in Bl.
    destruct G as (_ & Hn & _). assert (0 <= INR (length l) <= 1048576) as HN by (split; [apply pos_INR | rewrite INR_IZR_INZ; apply IZR_le; lia]).
    change (@length (binary_float 24 128) l) with (@length binary32 l) in *. unfold tot_err in Et.
    destruct (add_log m (lg total) (log_sum (map b2r l) - b2r m) (eps + (26 / 1000000 + INR (length l) / 6500000)) Fm Fl ltac:(lra) ltac:(lra) ltac:(lra)) as [Fr Hr].
    { replace (b2r (lg total) - (log_sum (map b2r l) - b2r m)) with ((b2r (lg total) - ln (b2r total)) + (ln (b2r total) - (log_sum (map b2r l) - b2r m))) by ring.
      eapply Rle_trans; [apply Rabs_triang |]. lra. }
    assert (fin (b32_plus mode_NE (lg total) m) = true /\ b2r (b32_plus mode_NE (lg total) m) = b2r (b32_plus mode_NE m (lg total))) as [Fp Ep].
    { assert (Rabs (b2r (lg total) + b2r m) <= bpow radix2 127) as Hb.
      { apply Rle_trans with (bpow radix2 40); [| apply bpow_le; lia]. change (bpow radix2 40) with 1099511627776.
        apply Rabs_le_inv in Bl. apply Rabs_le_inv in Et. apply Rabs_le_inv in Hm. apply Rabs_le. lra. }
      destruct (plus_ok (lg total) m Fl Fm Hb) as [E1 F1]. rewrite Rplus_comm in Hb. destruct (plus_ok m (lg total) Fm Fl Hb) as [E2 F2].
      split; [exact F1 |]. now rewrite E1, E2, Rplus_comm. }
    split; [exact Fp |]. rewrite Ep. replace (log_sum (map b2r l)) with (b2r m + (log_sum (map b2r l) - b2r m)) at 1 by ring. lra.
  Qed.

  Lemma vec_score (l : list binary32) i s : good_scores l -> nth_error l i = Some s -> exists m r, In m l /\ (forall s, In s l -> b2r s <= b2r m) /\
    score_from_scores_overwrite i l = Ok r /\ fin r = true /\
    Rabs (b2r r - (b2r s - log_sum (map b2r l))) <= eps + 3 / 100000 + INR (length l) / 6500000 + (b2r m - b2r s) / 8000000.
  Proof.
    intros G Hs. destruct (vec_total l G) as (m & total & Im & Mm & Ft & Rt & LW & Et & _ & A). exists m, (b32_minus mode_NE (b32_minus mode_NE s m) (lg total)).
    split; [exact Im |]. split; [exact Mm |]. split; [exact (A i s Hs) |]. destruct (good_at l m G Im) as [Fm Hm].
    assert (In s l) as Is by (apply (nth_error_In _ _ Hs)). destruct (good_at l s G Is) as [Fs Hs']. specialize (Mm s Is).
    destruct (Hlg total Ft Rt) as [Fl Bl]. fold (b2r total) (b2r (lg total)) in Bl.
    destruct G as (_ & Hn & _). assert (0 <= INR (length l) <= 1048576) as HN by (split; [apply pos_INR | rewrite INR_IZR_INZ; apply IZR_le; lia]).
    change (@length (binary_float 24 128) l) with (@length binary32 l) in *. unfold tot_err in Et.
    apply Rabs_le_inv in Bl. apply Rabs_le_inv in Et. apply Rabs_le_inv in Hm. apply Rabs_le_inv in Hs'.
    assert (bpow radix2 40 <= bpow radix2 127) as HB by (apply bpow_le; lia). change (bpow radix2 40) with 1099511627776 in HB.
    assert (eta32 <= / 1000000000) as Ht by (pose proof eta32_pos; lra).
    destruct (minus_ok s m Fs Fm) as [E1 F1]. { apply Rabs_le. lra. }
    pose proof (rnd_err (b2r s - b2r m)) as R1. rewrite <- E1 in R1. rewrite (Rabs_left1 (b2r s - b2r m)) in R1 by lra. unfold u24 in R1. apply Rabs_le_inv in R1.
    set (d := b32_minus mode_NE s m) in *. clearbody d.
    destruct (minus_ok d (lg total) F1 Fl) as [E2 F2]. { apply Rabs_le. lra. } split; [exact F2 |].
    pose proof (rnd_err (b2r d - b2r (lg total))) as R2. rewrite <- E2 in R2. unfold u24 in R2.
    assert (Rabs (b2r d - b2r (lg total)) <= (b2r m - b2r s) * (1001 / 1000) + 15) as R3 by (apply Rabs_le; lra).
    set (r := b32_minus mode_NE d (lg total)) in *. clearbody r.
    assert (Rabs (b2r r - (b2r d - b2r (lg total))) <= / 16777216 * ((b2r m - b2r s) * (1001 / 1000) + 15) + / 1000000000) as R4 by lra.
    apply Rabs_le_inv in R4. apply Rabs_le. lra.
  Qed.
End VectorFloat.

Lemma log_within_fast log2 : good_log2 log2 -> log_within (74 / 1000000) (fast_log32 log2).
Proof.
  intros H x F R. destruct (log32 log2 x H F) as [A B]. { apply Rle_trans with (bpow radix2 (-1)); [apply bpow_le; lia | change (bpow radix2 (-1)) with (/ 2); apply R]. }
  split; [exact A |]. apply Rabs_le. lra.
Qed.
