(** The density of the multivariate Student's t integrates to one, in every dimension. *)
From Coq Require Import Reals Lra Lia List.
From Coquelicot Require Import Coquelicot.
From Verif.model Require Import LinR.
From Verif.spec Require Import DrawSpec GaussSpec NiwSpec DensitySpec.
From Verif.proof Require Import NIWProof LinProof SchurProof StudentInt.
Import ListNotations.
Local Open Scope R_scope.

(** ** Sums *)
Lemma rs_ext (f g : nat -> R) l : (forall i, In i l -> f i = g i) -> rsum (map f l) = rsum (map g l).
Proof. intros H. f_equal. now apply map_ext_in. Qed.
Lemma rs_add (f g : nat -> R) l : rsum (map (fun i => f i + g i) l) = rsum (map f l) + rsum (map g l).
Proof. induction l as [|a l IH]; cbn; [ring | rewrite IH; ring]. Qed.
Lemma rs_scal c (f : nat -> R) l : rsum (map (fun i => c * f i) l) = c * rsum (map f l).
Proof. induction l as [|a l IH]; cbn; [ring | rewrite IH; ring]. Qed.
Lemma rs_shift (f : nat -> R) d : rsum (map f (seq 0 (S d))) = f 0%nat + rsum (map (fun i => f (S i)) (seq 0 d)).
Proof. cbn [seq map rsum]. now rewrite <- seq_shift, map_map. Qed.

Lemma quad_ext2 d f x y : (forall i, (i < d)%nat -> x i = y i) -> quad d f x = quad d f y.
Proof.
  intros H. unfold quad. apply rs_ext. intros i Hi. apply in_seq in Hi. apply rs_ext. intros j Hj. apply in_seq in Hj.
  now rewrite (H i), (H j) by lia.
Qed.

(** the square completed in the first coordinate *)
Definition tilt (d : nat) (f : nat -> nat -> R) (y : nat -> R) : R := rsum (map (fun j => f 0%nat (S j) * y j) (seq 0 d)).
Lemma quad_square d f x : f 0%nat 0%nat <> 0 -> (forall i, (i < d)%nat -> f (S i) 0%nat = f 0%nat (S i)) ->
  quad (S d) f x = f 0%nat 0%nat * (x 0%nat + tilt d f (fun i => x (S i)) / f 0%nat 0%nat) ^ 2 + quad d (schur f) (fun i => x (S i)).
Proof.
  intros H0 HS. set (a := f 0%nat 0%nat) in *. set (y := fun i => x (S i)). set (t := tilt d f y).
  unfold quad at 1. rewrite rs_shift, rs_shift. fold a.
  rewrite (rs_ext _ (fun j => x 0%nat * (f 0%nat (S j) * y j))) by (intros; unfold y; ring). rewrite rs_scal.
  change (rsum (map (fun j => f 0%nat (S j) * y j) (seq 0 d))) with t.
  rewrite (rs_ext _ (fun i => x 0%nat * (f 0%nat (S i) * y i) + rsum (map (fun j => y i * f (S i) (S j) * y j) (seq 0 d)))).
  2:{ intros i Hi. apply in_seq in Hi. rewrite rs_shift, HS by lia. unfold y. ring. }
  rewrite rs_add, rs_scal. change (rsum (map (fun i => f 0%nat (S i) * y i) (seq 0 d))) with t.
  assert (quad d (schur f) y = rsum (map (fun i => rsum (map (fun j => y i * f (S i) (S j) * y j) (seq 0 d))) (seq 0 d)) - t * t / a) as ->; [| field; exact H0].
  unfold quad. rewrite (rs_ext _ (fun i => rsum (map (fun j => y i * f (S i) (S j) * y j) (seq 0 d)) + (- t / a) * (f 0%nat (S i) * y i))).
  - rewrite rs_add, rs_scal. change (rsum (map (fun i => f 0%nat (S i) * y i) (seq 0 d))) with t. field. exact H0.
  - intros i _. rewrite (rs_ext _ (fun j => y i * f (S i) (S j) * y j + (- (y i * f 0%nat (S i)) / a) * (f 0%nat (S j) * y j))).
    + rewrite rs_add, rs_scal. change (rsum (map (fun i => f 0%nat (S i) * y i) (seq 0 d))) with t. field. exact H0.
    + intros j _. unfold schur. fold a. field. exact H0.
Qed.

Lemma spdf_first d f : spdf (S d) f -> 0 < f 0%nat 0%nat.
Proof.
  intros [_ H]. specialize (H (fun i => match i with O => 1 | _ => 0 end) ltac:(exists 0%nat; split; [lia | lra])).
  unfold quad in H. rewrite rs_shift, rs_shift in H.
  rewrite (rs_ext _ (fun _ => 0 * 0)) in H by (intros; ring). rewrite rs_scal in H.
  rewrite (rs_ext (fun i => rsum _) (fun _ => 0 * 0)) in H.
  - rewrite rs_scal in H. lra.
  - intros i _. rewrite (rs_ext _ (fun _ => 0 * 0)) by (intros; ring). rewrite rs_scal. ring.
Qed.
Lemma spdf_schur d f : spdf (S d) f -> spdf d (schur f).
Proof.
  intros H. pose proof (spdf_first d f H) as P. destruct H as [S1 S2]. split.
  - intros i j Hi Hj. unfold schur. rewrite (S1 (S i) (S j)) by lia. field. lra.
  - intros y (i & Hi & Ny). set (x := fun k => match k with O => - (tilt d f y / f 0%nat 0%nat) | S k' => y k' end).
    specialize (S2 x ltac:(exists (S i); split; [lia | exact Ny])).
    rewrite quad_square in S2; [| lra | intros; apply S1; lia].
    change (fun i => x (S i)) with y in S2. change (x 0%nat) with (- (tilt d f y / f 0%nat 0%nat)) in S2.
    replace (- (tilt d f y / f 0%nat 0%nat) + tilt d f y / f 0%nat 0%nat) with 0 in S2 by ring. lra.
Qed.
Lemma spdf_nonneg d f x : spdf d f -> 0 <= quad d f x.
Proof.
  intros [_ H]. destruct (Exists_dec (fun i => x i <> 0) (seq 0 d)) as [E | E].
  { intros i. destruct (Req_EM_T (x i) 0) as [Q | Q]; [right; tauto | left; exact Q]. }
  - apply Exists_exists in E as (i & Hi & N). apply in_seq in Hi. left. apply H. exists i. split; [lia | exact N].
  - right. symmetry. unfold quad. rewrite (rs_ext _ (fun _ => 0 * 0)), rs_scal; [ring |]. intros i Hi. rewrite (rs_ext _ (fun _ => 0 * 0)), rs_scal; [ring |].
    intros j _. destruct (Req_dec (x i) 0) as [Q | Q]; [rewrite Q; ring |]. exfalso. apply E. apply Exists_exists. now exists i.
Qed.

(** ** Masses *)
Lemma total_mass_n_ext d : forall f g m, (forall v, length v = d -> f v = g v) -> total_mass_n d f m -> total_mass_n d g m.
Proof.
  induction d as [|d IH]; intros f g m E; cbn [total_mass_n].
  - intros <-. symmetry. now apply E.
  - intros (h & H & K). exists h. split; [| exact K]. intros rest L. apply (total_mass_ext (fun x => f (x :: rest))); [| now apply H].
    intros x. apply E. cbn. now rewrite L.
Qed.

Section Mv.
  Variable lg : R -> R.
  Hypothesis HG : is_log_gamma lg.

  (** one coordinate *)
  Lemma slice_mass a b w p k : 0 < a -> 1 <= w -> / 2 < p ->
    total_mass (fun x => exp (k - p * ln (w + a * (x + b) ^ 2)))
      (exp (k + / 2 * ln PI - lg p + lg (p - / 2) - / 2 * ln a - (p - / 2) * ln w)).
  Proof using HG.
    intros Ha Hw Hp. set (nu := 2 * p - 1). assert (0 < nu) as Pn by (unfold nu; lra). set (s := sqrt (a / w)).
    assert (0 < a / w) as Pa by (apply Rdiv_lt_0_compat; lra). assert (0 < s) as Ps by (now apply sqrt_lt_R0).
    pose proof (bump_mass (exp (k - p * ln w)) s (- b) nu Ps Pn) as M. replace ((nu + 1) / 2) with p in M by (unfold nu; field).
    pose proof (mass_value lg HG half_mass half_mass_tends nu Pn) as V. unfold gap in V. replace ((nu + 1) / 2) with p in V by (unfold nu; field).
    replace (nu / 2) with (p - / 2) in V by (unfold nu; field).
    pose proof (m_pos half_mass half_mass_tends nu Pn) as Pm.
    replace (exp (k + / 2 * ln PI - lg p + lg (p - / 2) - / 2 * ln a - (p - / 2) * ln w)) with (exp (k - p * ln w) / s * (2 * half_mass nu)).
    - apply (total_mass_ext (bump (exp (k - p * ln w)) s (- b) p)); [| exact M]. intros x. unfold bump, ker. rewrite <- exp_plus. f_equal.
      replace (s * (x - - b) * (s * (x - - b))) with (a / w * (x + b) ^ 2).
      2:{ rewrite <- (sqrt_sqrt (a / w)) by lra. fold s. ring. }
      pose proof (pow2_ge_0 (x + b)) as Q.
      assert (0 <= a * (x + b) ^ 2) by (apply Rmult_le_pos; lra).
      replace (w + a * (x + b) ^ 2) with (w * (1 + a / w * (x + b) ^ 2)) by (field; lra).
      rewrite ln_mult; [ring | lra |]. assert (0 <= a / w * (x + b) ^ 2) by (apply Rmult_le_pos; lra). lra.
    - rewrite <- (exp_ln (2 * half_mass nu)) by lra. rewrite V.
      replace (exp (k - p * ln w) / s) with (exp (k - p * ln w - / 2 * (ln a - ln w))).
      + rewrite <- exp_plus. f_equal. field.
      + unfold Rminus at 1. rewrite exp_plus. unfold Rdiv. f_equal. rewrite exp_Ropp. f_equal.
        unfold s. rewrite <- (exp_ln (sqrt (a / w))) by exact Ps. f_equal. fold s.
        assert (ln (s * s) = ln a - ln w) as E by (unfold s; rewrite sqrt_sqrt, ln_div by lra; reflexivity). rewrite ln_mult in E by exact Ps. lra.
  Qed.

  Theorem mv_mass d : forall f c p k, spdf d f -> INR d / 2 < p ->
    total_mass_n d (fun v => exp (k - p * ln (1 + quad d f (fun i => coord i v - c i))))
      (exp (k + INR d / 2 * ln PI - lg p + lg (p - INR d / 2) - / 2 * ln (det_R (mtab d f)))).
  Proof using HG.
    induction d as [|d IH]; intros f c p k HS Hp; cbn [total_mass_n].
    - f_equal. rewrite (det_nil f), ln_1. unfold quad. cbn [seq map rsum INR]. rewrite Rplus_0_r, ln_1. replace (p - 0 / 2) with p by field. field.
    - pose proof (spdf_first d f HS) as P. pose proof (spdf_schur d f HS) as HS'. rewrite S_INR in Hp. pose proof (pos_INR d) as Pd.
      set (a := f 0%nat 0%nat) in *.
      set (k' := k + / 2 * ln PI - lg p + lg (p - / 2) - / 2 * ln a).
      exists (fun rest => exp (k' - (p - / 2) * ln (1 + quad d (schur f) (fun i => coord i rest - c (S i))))). split.
      + intros rest _. set (y := fun i => coord i rest - c (S i)).
        pose proof (spdf_nonneg d (schur f) y HS') as Q.
        pose proof (slice_mass a (- c 0%nat + tilt d f y / a) (1 + quad d (schur f) y) p k P ltac:(lra) ltac:(lra)) as M.
        eapply total_mass_ext; [| exact M]. intros x. cbn beta. f_equal. f_equal. f_equal. f_equal.
        rewrite quad_square; [| fold a; lra | intros; apply HS; lia].
        change (fun i => coord (S i) (x :: rest) - c (S i)) with y. fold a. change (coord 0 (x :: rest)) with x.
        replace (x - c 0%nat + tilt d f y / a) with (x + (- c 0%nat + tilt d f y / a)) by ring. ring.
      + specialize (IH (schur f) (fun i => c (S i)) (p - / 2) k' HS' ltac:(lra)).
        replace (k + INR (S d) / 2 * ln PI - lg p + lg (p - INR (S d) / 2) - / 2 * ln (det_R (mtab (S d) f)))
          with (k' + INR d / 2 * ln PI - lg (p - / 2) + lg (p - / 2 - INR d / 2) - / 2 * ln (det_R (mtab d (schur f)))); [exact IH |].
        rewrite (det_schurf HS) by (fold a; lra). fold a. rewrite ln_mult by (try apply det_spd; assumption). unfold k'. rewrite S_INR.
        replace (p - (INR d + 1) / 2) with (p - / 2 - INR d / 2) by field. field.
  Qed.
End Mv.
