(** Polynomials with dyadic coefficients: operations, and a check that one is not negative on an interval, by
    the signs of its coefficients in Bernstein's basis. *)
From Coq Require Import List Reals Lra Lia ZArith Bool.
From Coquelicot Require Import Coquelicot.
From Flocq Require Import Core.
Import ListNotations.
Local Open Scope R_scope.

Fixpoint peval (p : list Z) (w : R) : R := match p with [] => 0 | a :: t => IZR a + w * peval t w end.
Fixpoint padd (p q : list Z) : list Z :=
  match p, q with
  | [], _ => q
  | _, [] => p
  | a :: p', b :: q' => (a + b)%Z :: padd p' q'
  end.
Definition pscale (k : Z) (p : list Z) : list Z := map (fun a => (k * a)%Z) p.
Fixpoint pmul (p q : list Z) : list Z :=
  match p with [] => [] | a :: p' => padd (pscale a q) (0%Z :: pmul p' q) end.
Fixpoint pder (p : list Z) : list Z := match p with [] => [] | _ :: t => padd t (0%Z :: pder t) end.
Definition psh (k : Z) (p : list Z) : list Z := map (fun a => Z.shiftl a k) p.

Lemma peval_add p : forall q w, peval (padd p q) w = peval p w + peval q w.
Proof.
  induction p as [|a p IH]; intros q w; [cbn; ring |]. destruct q as [|b q]; cbn [padd peval]; [ring |].
  rewrite IH, plus_IZR. ring.
Qed.
Lemma peval_scale k p w : peval (pscale k p) w = IZR k * peval p w.
Proof. induction p as [|a p IH]; cbn; [ring |]. unfold pscale in IH. rewrite IH, mult_IZR. ring. Qed.
Lemma peval_mul p : forall q w, peval (pmul p q) w = peval p w * peval q w.
Proof.
  induction p as [|a p IH]; intros q w; [cbn; ring |]. cbn [pmul peval]. rewrite peval_add, peval_scale. cbn [peval].
  rewrite IH. ring.
Qed.
Lemma peval_sh k p w : (0 <= k)%Z -> peval (psh k p) w = bpow radix2 k * peval p w.
Proof.
  intros Hk. induction p as [|a p IH]; cbn; [ring |]. unfold psh in IH. rewrite IH, Z.shiftl_mul_pow2, mult_IZR by exact Hk.
  rewrite (IZR_Zpower radix2) by exact Hk. ring.
Qed.
Lemma peval_der p w : is_derive (peval p) w (peval (pder p) w).
Proof.
  revert w. induction p as [|a p IH]; intros w.
  - apply (is_derive_const (V := R_NormedModule)).
  - cbn [pder]. rewrite peval_add. cbn [peval].
    apply (is_derive_ext (fun w => IZR a + w * peval p w)); [reflexivity |].
    evar (l : R). replace (peval p w + (0 + w * peval (pder p) w)) with l; [unfold l |].
    + apply (is_derive_plus (fun _ => IZR a) (fun w => w * peval p w)); [apply is_derive_const |].
      apply (is_derive_mult (fun w => w) (peval p)); [apply is_derive_id | apply IH | intros; apply Rmult_comm].
    + unfold l. unfold plus, zero, mult, one. cbn. ring.
Qed.

(** Homogeneous polynomials of degree (length - 1) in two variables. *)
Fixpoint heval (h : list Z) (x y : R) : R :=
  match h with [] => 0 | c :: t => IZR c * x ^ length t + y * heval t x y end.
(** times (a x + b y) *)
Definition hlin (a b : Z) (h : list Z) : list Z := padd (pscale a h ++ [0%Z]) (0%Z :: pscale b h).
Lemma heval_add p : forall q x y, length p = length q -> heval (padd p q) x y = heval p x y + heval q x y /\ length (padd p q) = length p.
Proof.
  induction p as [|a p IH]; intros [|b q] x y L; try discriminate; cbn [padd heval length]; [split; [ring | reflexivity] |].
  injection L as L. destruct (IH q x y L) as [E1 E2]. rewrite E1, E2, plus_IZR, L. split; [ring | reflexivity].
Qed.
Lemma heval_scale k p x y : heval (pscale k p) x y = IZR k * heval p x y.
Proof. unfold pscale. induction p as [|a p IH]; cbn [map heval]; [ring |]. rewrite IH, mult_IZR, map_length. ring. Qed.
Lemma heval_snoc p x y : heval (p ++ [0%Z]) x y = x * heval p x y.
Proof.
  induction p as [|a p IH]; cbn [app heval length]; [ring |]. rewrite IH, app_length. cbn [length].
  rewrite Nat.add_1_r. cbn [pow]. ring.
Qed.
Lemma hlin_len a b h : length (hlin a b h) = S (length h).
Proof.
  unfold hlin. destruct (heval_add (pscale a h ++ [0%Z]) (0%Z :: pscale b h) 0 0) as [_ E].
  - unfold pscale. cbn [length]. rewrite app_length, !map_length. cbn. lia.
  - rewrite E. unfold pscale. rewrite app_length, map_length. cbn. lia.
Qed.
Lemma heval_lin a b h x y : heval (hlin a b h) x y = (IZR a * x + IZR b * y) * heval h x y.
Proof.
  unfold hlin. destruct (heval_add (pscale a h ++ [0%Z]) (0%Z :: pscale b h) x y) as [E _].
  - unfold pscale. cbn [length]. rewrite app_length, !map_length. cbn. lia.
  - rewrite E, heval_snoc. cbn [heval]. rewrite !heval_scale. ring.
Qed.
(** [binom m] is (x + y)^m; [hom a b p] is p of degree n at (a x + b y), made homogeneous with powers of x + y *)
Fixpoint binom (m : nat) : list Z := match m with O => [1%Z] | S m' => hlin 1 1 (binom m') end.
Fixpoint hom (a b : Z) (p : list Z) : list Z :=
  match p with
  | [] => []
  | c :: t => match t with [] => [c] | _ => padd (pscale c (binom (length t))) (hlin a b (hom a b t)) end
  end.
Lemma binom_len m : length (binom m) = S m.
Proof. induction m as [|m IH]; [reflexivity |]. cbn [binom]. now rewrite hlin_len, IH. Qed.
Lemma binom_one m x y : x + y = 1 -> heval (binom m) x y = 1.
Proof. intros H. induction m as [|m IH]; [cbn; ring |]. cbn [binom]. rewrite heval_lin, IH, !Rmult_1_l. lra. Qed.
Lemma hom_len a b p : length (hom a b p) = length p.
Proof.
  induction p as [|c t IH]; [reflexivity |]. cbn [hom]. destruct t as [|c' t']; [reflexivity |]. set (t := c' :: t') in *.
  destruct (heval_add (pscale c (binom (length t))) (hlin a b (hom a b t)) 0 0) as [_ E].
  - unfold pscale. rewrite map_length, binom_len, hlin_len, IH. reflexivity.
  - rewrite E. unfold pscale. rewrite map_length, binom_len. reflexivity.
Qed.
Lemma hom_eval a b p x y : x + y = 1 -> heval (hom a b p) x y = peval p (IZR a * x + IZR b * y).
Proof.
  intros H. induction p as [|c t IH]; [reflexivity |]. cbn [hom]. destruct t as [|c' t']; [cbn; ring |]. set (t := c' :: t') in *.
  destruct (heval_add (pscale c (binom (length t))) (hlin a b (hom a b t)) x y) as [E _].
  - unfold pscale. rewrite map_length, binom_len, hlin_len, hom_len. reflexivity.
  - rewrite E, heval_scale, binom_one, heval_lin, IH by exact H. change (peval (c :: t) ?w) with (IZR c + w * peval t w). ring.
Qed.
Lemma heval_nonneg h x y : forallb (fun c => 0 <=? c)%Z h = true -> 0 <= x -> 0 <= y -> 0 <= heval h x y.
Proof.
  intros H Hx Hy. induction h as [|c t IH]; [cbn; lra |]. cbn in H. apply andb_prop in H as [H1 H2]. apply Z.leb_le, IZR_le in H1.
  cbn [heval]. specialize (IH H2). pose proof (pow_le x (length t) Hx). apply Rplus_le_le_0_compat; now apply Rmult_le_pos.
Qed.
Definition nonneg_on (a b : Z) (p : list Z) : bool := forallb (fun c => 0 <=? c)%Z (hom a b p).
Lemma nonneg_ok a b p w : nonneg_on a b p = true -> (a < b)%Z -> IZR a <= w <= IZR b -> 0 <= peval p w.
Proof.
  intros H Hab Hw. apply IZR_lt in Hab. set (y := (w - IZR a) / (IZR b - IZR a)).
  assert (0 <= y <= 1) as Hy.
  { unfold y. split; [apply Rmult_le_pos; [lra | left; apply Rinv_0_lt_compat; lra] |].
    apply Rmult_le_reg_r with (IZR b - IZR a); [lra |]. unfold Rdiv. rewrite Rmult_assoc, Rinv_l; lra. }
  assert (w = IZR a * (1 - y) + IZR b * y) as E by (unfold y; field; lra).
  rewrite E, <- hom_eval by ring. apply heval_nonneg; [exact H | lra | lra].
Qed.

(** ** Dyadic polynomials: coefficients times a power of two *)
Definition dp : Type := (list Z * Z)%type.
Definition dv (d : dp) (w : R) : R := peval (fst d) w * bpow radix2 (snd d).
Definition dc (m e : Z) : dp := ([m], e).
Definition dvar : dp := ([0; 1]%Z, 0%Z).
Definition dadd (p q : dp) : dp :=
  let m := Z.min (snd p) (snd q) in (padd (psh (snd p - m) (fst p)) (psh (snd q - m) (fst q)), m).
Definition dmul (p q : dp) : dp := (pmul (fst p) (fst q), (snd p + snd q)%Z).
Definition dopp (p : dp) : dp := (pscale (-1) (fst p), snd p).
Definition dsub (p q : dp) : dp := dadd p (dopp q).
Fixpoint dpow (p : dp) (n : nat) : dp := match n with O => dc 1 0 | S n' => dmul p (dpow p n') end.

Lemma dv_c m e w : dv (dc m e) w = IZR m * bpow radix2 e.
Proof. unfold dv, dc. cbn [fst snd peval]. ring. Qed.
Lemma dv_var w : dv dvar w = w.
Proof. unfold dv, dvar. cbn [fst snd peval bpow]. ring. Qed.
Lemma dv_add p q w : dv (dadd p q) w = dv p w + dv q w.
Proof.
  unfold dv, dadd. cbn [fst snd]. rewrite peval_add, !peval_sh by lia. set (m := Z.min (snd p) (snd q)).
  replace (bpow radix2 (snd p)) with (bpow radix2 (snd p - m) * bpow radix2 m) by (rewrite <- bpow_plus; f_equal; lia).
  replace (bpow radix2 (snd q)) with (bpow radix2 (snd q - m) * bpow radix2 m) by (rewrite <- bpow_plus; f_equal; lia). ring.
Qed.
Lemma dv_mul p q w : dv (dmul p q) w = dv p w * dv q w.
Proof. unfold dv, dmul. cbn [fst snd]. rewrite peval_mul, bpow_plus. ring. Qed.
Lemma dv_opp p w : dv (dopp p) w = - dv p w.
Proof. unfold dv, dopp. cbn [fst snd]. rewrite peval_scale. ring. Qed.
Lemma dv_sub p q w : dv (dsub p q) w = dv p w - dv q w.
Proof. unfold dsub. rewrite dv_add, dv_opp. ring. Qed.
Lemma dv_pow p n w : dv (dpow p n) w = dv p w ^ n.
Proof. induction n as [|n IH]; cbn [dpow pow]; [rewrite dv_c; cbn; ring |]. now rewrite dv_mul, IH. Qed.
Definition dnonneg (a b : Z) (p : dp) : bool := nonneg_on a b (fst p).
Lemma dnonneg_ok a b p w : dnonneg a b p = true -> (a < b)%Z -> IZR a <= w <= IZR b -> 0 <= dv p w.
Proof. intros H Hab Hw. unfold dv. apply Rmult_le_pos; [now apply (nonneg_ok a b) | apply bpow_ge_0]. Qed.
