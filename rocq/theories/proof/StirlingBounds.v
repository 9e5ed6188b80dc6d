(** Bounds on Stirling numbers of the first kind. *)
From Coq Require Import Reals Lra ZArith Lia List.
From Verif.spec Require Import StirlingSpec FloatStirlingSpec.
From Verif.proof Require Import LnBounds FloatRel StirlingProof FloatStirlingProof.
Local Open Scope R_scope.

Lemma fact_pos n : 0 < INR (fact n).
Proof. apply lt_0_INR, lt_O_fact. Qed.
Lemma fact_SR n : INR (fact (S n)) = INR (S n) * INR (fact n).
Proof. rewrite <- mult_INR. reflexivity. Qed.

(** (a + b)^k >= a^k + k b a^(k-1) *)
Lemma pow_plus a b k : 0 <= a -> 0 <= b -> a ^ S k + INR (S k) * b * a ^ k <= (a + b) ^ S k.
Proof.
  intros Ha Hb. induction k as [| k IH]; [cbn; lra |].
  replace ((a + b) ^ S (S k)) with ((a + b) * (a + b) ^ S k) by reflexivity.
  apply Rle_trans with ((a + b) * (a ^ S k + INR (S k) * b * a ^ k)); [| apply Rmult_le_compat_l; lra].
  rewrite (S_INR (S k)). cbn [pow]. pose proof (pow_le a k Ha) as P. pose proof (pos_INR (S k)) as Q.
  assert (0 <= INR (S k) * (b * b) * a ^ k) as R by (repeat apply Rmult_le_pos; lra).
  assert ((a + b) * (a * a ^ k + INR (S k) * b * a ^ k) - (a * (a * a ^ k) + (INR (S k) + 1) * b * (a * a ^ k)) = INR (S k) * (b * b) * a ^ k) as E by ring. lra.
Qed.

Definition tri (n : nat) : R := INR n * (INR n - 1) / 2.
Lemma tri_nonneg n : 0 <= tri n.
Proof. unfold tri. destruct n as [| n]; [cbn; lra |]. rewrite S_INR. pose proof (pos_INR n). nra. Qed.
Lemma tri_S n : tri (S n) = tri n + INR n.
Proof. unfold tri. rewrite S_INR. field. Qed.

Lemma st1_upper2 n : forall k, (k <= n)%nat -> st1 n k <= tri n ^ (n - k) / INR (fact (n - k)).
Proof.
  induction n as [| n IH]; intros k Hk.
  - assert (k = 0)%nat as -> by lia. cbn. lra.
  - pose proof (tri_nonneg n) as T. pose proof (tri_nonneg (S n)) as T'. pose proof (pos_INR n) as N.
    destruct k as [| k]. { cbn [st1]. unfold Rdiv. apply Rmult_le_pos; [apply pow_le; exact T' | left; apply Rinv_0_lt_compat, fact_pos]. }
    cbn [st1]. replace (S n - S k)%nat with (n - k)%nat by lia. pose proof (IH k ltac:(lia)) as A.
    destruct (Nat.eq_dec k n) as [-> | Hne].
    + rewrite st1_above by lia. rewrite Nat.sub_diag in *. cbn in *. lra.
    + pose proof (IH (S k) ltac:(lia)) as B. destruct (n - k)%nat as [| j] eqn:Ej; [lia |]. replace (n - S k)%nat with j in B by lia.
      pose proof (pow_plus (tri n) (INR n) j T N) as P. rewrite <- tri_S in P. rewrite fact_SR in *.
      pose proof (fact_pos j) as Fj. assert (0 < INR (S j)) as Sj by (apply lt_0_INR; lia). set (f := INR (fact j)) in *.
      apply Rle_trans with (INR n * (tri n ^ j / f) + tri n ^ S j / (INR (S j) * f)); [apply Rplus_le_compat; [apply Rmult_le_compat_l; lra | lra] |].
      replace (INR n * (tri n ^ j / f) + tri n ^ S j / (INR (S j) * f)) with ((tri n ^ S j + INR (S j) * INR n * tri n ^ j) / (INR (S j) * f)) by (field; lra).
      unfold Rdiv. apply Rmult_le_compat_r; [| exact P]. left. apply Rinv_0_lt_compat, Rmult_lt_0_compat; assumption.
Qed.

Fixpoint harm (n : nat) : R := match n with O => 0 | S m => harm m + / INR (S m) end.
Lemma harm_nonneg n : 0 <= harm n.
Proof. induction n as [| n IH]; cbn [harm]; [lra |]. pose proof (Rinv_0_lt_compat (INR (S n)) ltac:(apply lt_0_INR; lia)). lra. Qed.

Lemma st1_upper1 n : forall k, st1 (S n) (S k) <= INR (fact n) / INR (fact k) * harm n ^ k.
Proof.
  induction n as [| n IH]; intros k.
  - destruct k as [| k]; [cbn; lra |]. rewrite st1_above by lia. cbn [harm]. rewrite pow_ne_zero by lia. lra.
  - change (st1 (S (S n)) (S k)) with (INR (S n) * st1 (S n) (S k) + st1 (S n) k).
    pose proof (IH k) as A. pose proof (harm_nonneg n) as H. assert (0 < INR (S n)) as N by (apply lt_0_INR; lia).
    pose proof (fact_pos n) as Fn. pose proof (fact_pos k) as Fk. rewrite fact_SR. cbn [harm].
    destruct k as [| k].
    + rewrite st1_zero by lia. cbn [pow fact] in *. change (INR 1) with 1 in *. assert (INR (S n) * st1 (S n) 1 <= INR (S n) * (INR (fact n) / 1 * 1)) as B by (apply Rmult_le_compat_l; lra). lra.
    + pose proof (IH k) as B. pose proof (pow_plus (harm n) (/ INR (S n)) k H ltac:(left; now apply Rinv_0_lt_compat)) as P.
      rewrite (fact_SR k) in *. pose proof (fact_pos k) as Fk'. assert (0 < INR (S k)) as Sk by (apply lt_0_INR; lia).
      set (a := INR (fact n)) in *. set (b := INR (fact k)) in *. set (N1 := INR (S n)) in *. set (K1 := INR (S k)) in *.
      apply Rle_trans with (N1 * (a / (K1 * b) * harm n ^ S k) + a / b * harm n ^ k); [apply Rplus_le_compat; [apply Rmult_le_compat_l; lra | exact B] |].
      replace (N1 * (a / (K1 * b) * harm n ^ S k) + a / b * harm n ^ k) with (N1 * a / (K1 * b) * (harm n ^ S k + K1 * / N1 * harm n ^ k)) by (field; lra).
      apply Rmult_le_compat_l; [| exact P]. left. apply Rdiv_lt_0_compat; apply Rmult_lt_0_compat; assumption.
Qed.

Lemma st1_lower n : forall k, (k <= n)%nat -> INR (fact n) / INR (fact k) <= st1 (S n) (S k).
Proof.
  induction n as [| n IH]; intros k Hk.
  - assert (k = 0)%nat as -> by lia. cbn. lra.
  - destruct (Nat.eq_dec k (S n)) as [-> | Hne].
    + rewrite st1_diag. unfold Rdiv. rewrite Rinv_r; [lra | apply Rgt_not_eq, fact_pos].
    + change (st1 (S (S n)) (S k)) with (INR (S n) * st1 (S n) (S k) + st1 (S n) k). pose proof (IH k ltac:(lia)) as A.
      rewrite fact_SR. assert (0 < INR (S n)) as N by (apply lt_0_INR; lia). pose proof (st1_nonneg (S n) k) as B.
      assert (INR (S n) * (INR (fact n) / INR (fact k)) <= INR (S n) * st1 (S n) (S k)) as C by (apply Rmult_le_compat_l; lra).
      unfold Rdiv in *. lra.
Qed.

Lemma st1_two n : st1 (S n) 2 = INR (fact n) * harm n.
Proof.
  induction n as [| n IH]; [cbn; lra |]. change (st1 (S (S n)) 2) with (INR (S n) * st1 (S n) 2 + st1 (S n) 1).
  assert (forall m, st1 (S m) 1 = INR (fact m)) as O.
  { induction m as [| m IHm]; [cbn; lra |]. change (st1 (S (S m)) 1) with (INR (S m) * st1 (S m) 1 + st1 (S m) 0). rewrite IHm, st1_zero, fact_SR by lia. lra. }
  rewrite IH, O, fact_SR. cbn [harm]. field. apply Rgt_not_eq, lt_0_INR. lia.
Qed.

(** H_m - ln m decreases. *)
Lemma harm_ln_S m : (1 <= m)%nat -> harm (S m) - ln (INR (S m)) <= harm m - ln (INR m).
Proof.
  intros H. cbn [harm]. assert (0 < INR m) as P by (apply lt_0_INR; lia). assert (0 < INR (S m)) as Q by (apply lt_0_INR; lia).
  pose proof (ln_sub (INR (S m)) (INR m) Q P) as L. rewrite S_INR in *. replace ((INR m - (INR m + 1)) / (INR m + 1)) with (- / (INR m + 1)) in L by (field; lra). lra.
Qed.
Lemma harm_31 : 40272 / 10000 <= harm 31 <= 402725 / 100000.
Proof. cbn [harm]. rewrite !INR_IZR_INZ. cbn [Z.of_nat Pos.of_succ_nat Pos.succ]. lra. Qed.
Lemma ln_31 : 34338 / 10000 <= ln 31 <= 34345 / 10000.
Proof.
  pose proof ln2_hi as U. pose proof ln2_lo as V.
  assert (ln 31 = 5 * ln 2 + ln (31 / 32)) as E.
  { replace 31 with (2 ^ 5 * (31 / 32)) at 1 by lra. rewrite ln_mult by lra. rewrite ln_pow by lra. replace (INR 5) with 5 by (rewrite INR_IZR_INZ; reflexivity). reflexivity. }
  pose proof (ln_sub 1 (31 / 32) ltac:(lra) ltac:(lra)) as A. rewrite ln_1 in A.
  assert (ln (31 / 32) = - (ln (32 / 31))) as E2. { rewrite <- ln_Rinv by lra. f_equal. field. }
  (* ln (32/31) = 2 ln (1 + x), (1 + x)^2 = 32/31 *)
  assert (- ln (32 / 31) >= - (3192 / 100000)) as B.
  { assert (32 / 31 <= (1 + 1601 / 100000) * (1 + 1601 / 100000)) as S by lra. apply ln_le' in S; [| lra]. rewrite ln_mult in S by lra.
    assert (1 + 1601 / 100000 <= (1 + 798 / 100000) * (1 + 798 / 100000)) as S2 by lra. apply ln_le' in S2; [| lra]. rewrite ln_mult in S2 by lra.
    pose proof (ln_sub 1 (1 + 798 / 100000) ltac:(lra) ltac:(lra)) as C. rewrite ln_1 in C. lra. }
  rewrite E. lra.
Qed.
Lemma harm_le m : (31 <= m)%nat -> harm m <= ln (INR m) + 5939 / 10000.
Proof.
  intros H. induction H as [| m H IH].
  - pose proof harm_31. pose proof ln_31. replace (INR 31) with 31 by (rewrite INR_IZR_INZ; reflexivity). lra.
  - pose proof (harm_ln_S m ltac:(lia)). lra.
Qed.

(** *** The approximations *)
Lemma softmin_le w a b : 0 < w -> softmin w a b <= a /\ softmin w a b <= b.
Proof.
  intros Hw. unfold softmin. set (l := ln _).
  assert (- a / w <= l /\ - b / w <= l) as [A B].
  { unfold l. rewrite <- (ln_exp (- a / w)) at 1. rewrite <- (ln_exp (- b / w)) at 2. pose proof (exp_pos (- a / w)). pose proof (exp_pos (- b / w)). split; apply ln_le'; lra. }
  assert (forall c, - c / w <= l -> - w * l <= c) as Q.
  { intros c H. assert (w * (- c / w) <= w * l) as M by (apply Rmult_le_compat_l; lra). replace (w * (- c / w)) with (- c) in M by (field; lra). lra. }
  split; apply Q; assumption.
Qed.
Lemma softmin_ge w a b m : 0 < w -> m <= a -> m <= b -> m - w * ln 2 <= softmin w a b.
Proof.
  intros Hw Ha Hb. unfold softmin.
  assert (exp (- a / w) + exp (- b / w) <= 2 * exp (- m / w)) as E.
  { assert (forall c, m <= c -> exp (- c / w) <= exp (- m / w)) as Q.
    { intros c Hc. assert (- c / w <= - m / w) as L by (unfold Rdiv; apply Rmult_le_compat_r; [left; now apply Rinv_0_lt_compat | lra]).
      destruct (Rle_lt_or_eq_dec _ _ L) as [L' | ->]; [left; now apply exp_increasing | lra]. }
    pose proof (Q a Ha). pose proof (Q b Hb). lra. }
  apply ln_le' in E; [| pose proof (exp_pos (- a / w)); pose proof (exp_pos (- b / w)); lra].
  rewrite ln_mult, ln_exp in E; [| lra | apply exp_pos]. set (l := ln (exp (- a / w) + exp (- b / w))) in *.
  assert (w * l <= w * (ln 2 + - m / w)) as M by (apply Rmult_le_compat_l; lra). replace (w * (ln 2 + - m / w)) with (w * ln 2 - m) in M by (field; lra). lra.
Qed.

Lemma approx2_ge n k : (2 <= n)%nat -> (1 <= k < n)%nat -> ln (st1 n k) <= approx2 n k.
Proof.
  intros Hn Hk. unfold approx2. pose proof (st1_pos n k ltac:(lia)) as P. pose proof (st1_upper2 n k ltac:(lia)) as U.
  apply ln_le' in U; [| exact P]. assert (2 <= INR n) as N by (apply (le_INR 2); lia).
  assert (0 < tri n <= INR n * INR n / 2) as T by (unfold tri; nra).
  unfold Rdiv in U at 1. rewrite ln_mult, ln_Rinv, ln_pow in U; [| lra | apply fact_pos | now apply pow_lt | apply Rinv_0_lt_compat, fact_pos].
  assert (INR (n - k) * ln (tri n) <= INR (n - k) * ln (INR n * INR n / 2)) as M by (apply Rmult_le_compat_l; [apply pos_INR | apply ln_le'; lra]). lra.
Qed.

Lemma approx1_le g n k : (32 <= n)%nat -> (1 <= k < n)%nat ->
  approx1 g n k <= ln (st1 n k) + INR (k - 1) * ln (g + ln (INR (n - 1))).
Proof.
  intros Hn Hk. unfold approx1. destruct n as [| n]; [lia |]. destruct k as [| k]; [lia |]. replace (S n - 1)%nat with n by lia. replace (S k - 1)%nat with k by lia.
  pose proof (st1_lower n k ltac:(lia)) as L. pose proof (fact_pos n). pose proof (fact_pos k).
  apply ln_le' in L; [| now apply Rdiv_lt_0_compat]. unfold Rdiv in L. rewrite ln_mult, ln_Rinv in L; try assumption; [lra | now apply Rinv_0_lt_compat].
Qed.

Lemma ln_n1 n : (32 <= n)%nat -> 34338 / 10000 <= ln (INR (n - 1)).
Proof.
  intros H. apply Rle_trans with (ln 31); [apply ln_31 |]. apply ln_le'; [lra |]. replace 31 with (INR 31) by (rewrite INR_IZR_INZ; reflexivity). apply le_INR. lia.
Qed.

Lemma approx1_ge g n k : 5772 / 10000 <= g <= 58 / 100 -> (32 <= n)%nat -> (1 <= k < n)%nat -> ln (st1 n k) <= approx1 g n k + INR (k - 1) * (42 / 10000).
Proof.
  intros Hg Hn Hk. pose proof (ln_n1 n Hn) as L0. unfold approx1. destruct n as [| n]; [lia |]. destruct k as [| k]; [lia |].
  replace (S n - 1)%nat with n in * by lia. replace (S k - 1)%nat with k by lia.
  pose proof (st1_upper1 n k) as U. pose proof (st1_pos (S n) (S k) ltac:(lia)) as P. pose proof (fact_pos n) as Fn. pose proof (fact_pos k) as Fk.
  pose proof (harm_le n ltac:(lia)) as H. pose proof (harm_nonneg n) as H0. set (l := ln (INR n)) in *.
  assert (0 < harm n) as H1. { destruct n as [| n]; [lia |]. cbn [harm]. pose proof (harm_nonneg n). pose proof (Rinv_0_lt_compat (INR (S n)) ltac:(apply lt_0_INR; lia)). lra. }
  apply ln_le' in U; [| exact P]. unfold Rdiv in U. rewrite ln_mult, ln_mult, ln_Rinv, ln_pow in U;
    try assumption; try (now apply Rinv_0_lt_compat); try (now apply pow_lt); try (apply Rmult_lt_0_compat; [assumption | now apply Rinv_0_lt_compat]).
  assert (ln (harm n) <= ln (g + l) + 42 / 10000) as Q.
  { pose proof (ln_sub (g + l) (harm n) ltac:(lra) H1) as S.
    assert ((harm n - (g + l)) / (g + l) <= 42 / 10000); [| lra]. apply Rmult_le_reg_r with (g + l); [lra |]. unfold Rdiv at 1. rewrite Rmult_assoc, Rinv_l by lra. lra. }
  assert (INR k * ln (harm n) <= INR k * (ln (g + l) + 42 / 10000)) as M by (apply Rmult_le_compat_l; [apply pos_INR | exact Q]). lra.
Qed.

Lemma soft_bracket g n k : 5772 / 10000 <= g <= 58 / 100 -> (32 <= n)%nat -> (1 <= k < n)%nat ->
  ln (st1 n k) - 236 / 1000 * INR n <= softmin (INR n / 3) (approx1 g n k) (approx2 n k) <= ln (st1 n k) + INR (k - 1) * ln (g + ln (INR (n - 1))).
Proof.
  intros Hg Hn Hk. assert (0 < INR n / 3) as W by (assert (0 < INR n) by (apply lt_0_INR; lia); lra).
  pose proof (approx1_ge g n k Hg Hn Hk) as A. pose proof (approx1_le g n k Hn Hk) as B. pose proof (approx2_ge n k ltac:(lia) Hk) as C.
  destruct (softmin_le (INR n / 3) (approx1 g n k) (approx2 n k) W) as [U _]. split; [| lra].
  assert (INR (k - 1) <= INR n) as K by (apply le_INR; lia). pose proof (pos_INR (k - 1)) as K0. pose proof ln2_hi.
  pose proof (softmin_ge (INR n / 3) (approx1 g n k) (approx2 n k) (ln (st1 n k) - INR (k - 1) * (42 / 10000)) W ltac:(lra) ltac:(lra)) as L.
  assert (INR n / 3 * ln 2 <= INR n / 3 * (6931472 / 10000000)) as M by (apply Rmult_le_compat_l; lra). lra.
Qed.

(** The first approximation is not an overestimate. *)
Lemma approx1_two g : g <= 58 / 100 -> 0 < g -> approx1 g 32 2 < ln (st1 32 2).
Proof.
  intros Hg Pg. rewrite st1_two. pose proof harm_31 as H. pose proof ln_31 as L. rewrite ln_mult; [| apply fact_pos | lra].
  unfold approx1. change (32 - 1)%nat with 31%nat. change (2 - 1)%nat with 1%nat. replace (INR 31) with 31 by (rewrite INR_IZR_INZ; reflexivity).
  replace (ln (INR (fact 1))) with 0 by (cbn; symmetry; apply ln_1). change (INR 1) with 1.
  pose proof (ln_increasing (g + ln 31) (harm 31) ltac:(lra) ltac:(lra)). lra.
Qed.

(** The specification has one solution. *)
Lemma poly_zero c : (forall x, poly c x = 0) -> List.Forall (fun a => a = 0) c.
Proof.
  induction c as [| a c IH]; intros H; constructor.
  - specialize (H 0). cbn [poly] in H. lra.
  - apply IH. assert (a = 0) as A by (specialize (H 0); cbn [poly] in H; lra).
    assert (forall x, x <> 0 -> poly c x = 0) as Z. { intros x Hx. specialize (H x). cbn [poly] in H. rewrite A in H. apply Rmult_eq_reg_l with x; [lra | exact Hx]. }
    intros x. destruct (Req_dec x 0) as [-> | Hx]; [| now apply Z].
    destruct (Req_dec (poly c 0) 0) as [E | E]; [exact E |]. exfalso.
    assert (continuity (poly c)) as C. { clear. induction c as [| a c IH]; [apply continuity_const; intros x y; reflexivity |].
      change (continuity (plus_fct (fct_cte a) (mult_fct id (poly c)))). apply continuity_plus; [apply continuity_const; intros x y; reflexivity |]. apply continuity_mult; [apply derivable_continuous, derivable_id | exact IH]. }
    destruct (C 0 (Rabs (poly c 0)) (Rabs_pos_lt _ E)) as (d & Pd & Hd). specialize (Hd (d / 2)).
    assert (Rabs (poly c (d / 2) - poly c 0) < Rabs (poly c 0)) as Q.
    { apply Hd. split; [split; [exact I | lra] |]. cbn. unfold R_dist. rewrite Rminus_0_r, Rabs_pos_eq; lra. }
    rewrite Z in Q by lra. rewrite Rminus_0_l, Rabs_Ropp in Q. lra.
Qed.
Lemma row_unique n c k s : stirling_row n c -> (k <= n)%nat -> nth_error c k = Some s -> s = st1 n k.
Proof.
  intros [L P] Hk Hs. destruct (st1_row n) as [L' P']. set (d := map (st1 n) (seq 0 (S n))) in *.
  assert (forall a b x, length a = length b -> poly (map (fun q => fst q - snd q) (combine a b)) x = poly a x - poly b x) as D.
  { induction a as [| u a IH]; intros [| v b] x H; try discriminate H; [cbn; lra |]. injection H as H. cbn [combine map poly fst snd]. rewrite IH by exact H. ring. }
  pose proof (poly_zero (map (fun q => fst q - snd q) (combine c d))) as Z. specialize (Z ltac:(intros x; rewrite D by congruence; rewrite P, P'; lra)).
  assert (nth_error d k = Some (st1 n k)) as Hd.
  { unfold d. rewrite nth_error_map, (nth_error_nth' (seq 0 (S n)) O) by (rewrite seq_length; lia). rewrite seq_nth by lia. reflexivity. }
  clear L P L' P' D. clearbody d. remember (st1 n k) as t eqn:Et. clear Et. revert t d k Hk Hs Hd Z. induction c as [| a c IH]; intros t d k Hk Hs Hd Z; [destruct k; discriminate Hs |].
  destruct d as [| b d]; [destruct k; discriminate Hd |]. cbn [combine map] in Z. inversion Z; subst. destruct k as [| k]; cbn [nth_error fst snd] in *.
  - injection Hs as ->. injection Hd as ->. lra.
  - apply (IH t d k); try assumption. lia.
Qed.

(** *** k = 1: the soft minimum is well below log (n-1)!, which the first approximation gives exactly. *)
Lemma fact_lower m : (1 <= m)%nat -> INR m * ln (INR m) - INR m <= ln (INR (fact m)).
Proof.
  intros H. induction H as [| m H IH]; [cbn; rewrite ln_1; lra |]. rewrite fact_SR, ln_mult; [| apply lt_0_INR; lia | apply fact_pos].
  assert (0 < INR m) as P by (apply lt_0_INR; lia). pose proof (ln_sub (INR m) (INR (S m)) P ltac:(apply lt_0_INR; lia)) as L. rewrite S_INR in *.
  replace ((INR m + 1 - INR m) / INR m) with (/ INR m) in L by (field; lra).
  assert (INR m * (ln (INR m + 1) - ln (INR m)) <= INR m * / INR m) as Q by (apply Rmult_le_compat_l; lra). rewrite Rinv_r in Q by lra. lra.
Qed.
Lemma soft_first g n : (32 <= n)%nat -> softmin (INR n / 3) (approx1 g n 1) (approx2 n 1) <= ln (INR (fact (n - 1))) - INR n / 200.
Proof.
  intros Hn. set (N := INR n). assert (32 <= N) as RN by (unfold N; replace 32 with (INR 32) by (rewrite INR_IZR_INZ; reflexivity); apply le_INR; lia).
  set (A := ln (INR (fact (n - 1)))).
  assert (approx1 g n 1 = A) as ->. { unfold approx1. rewrite Nat.sub_diag. cbn [fact INR]. rewrite ln_1. fold A. ring. }
  assert (approx2 n 1 - A <= 133 / 100 * N) as B.
  { unfold approx2. fold A. fold N. pose proof (fact_lower (n - 1) ltac:(lia)) as F. fold A in F.
    assert (INR (n - 1) = N - 1) as E by (rewrite minus_INR by lia; reflexivity). rewrite E in *.
    assert (ln (N * N / 2) = 2 * ln N - ln 2) as EL. { unfold Rdiv. rewrite ln_mult, ln_mult, ln_Rinv by nra. ring. }
    rewrite EL. pose proof (ln_sub (N - 1) N ltac:(lra) ltac:(lra)) as L. replace ((N - (N - 1)) / (N - 1)) with (/ (N - 1)) in L by (field; lra).
    assert ((N - 1) * (ln N - ln (N - 1)) <= (N - 1) * / (N - 1)) as Q by (apply Rmult_le_compat_l; lra). rewrite Rinv_r in Q by lra.
    pose proof ln2_lo as L2. assert ((N - 1) * (693147 / 1000000) <= (N - 1) * ln 2) as Q2 by (apply Rmult_le_compat_l; lra).
    replace ((N - 1) * (2 * ln N - ln 2) - A - A) with (2 * ((N - 1) * (ln N - ln (N - 1))) + 2 * ((N - 1) * ln (N - 1) - (N - 1) - A) + 2 * (N - 1) - (N - 1) * ln 2) by ring. lra. }
  unfold softmin. set (w := N / 3) in *. assert (0 < w) as Pw by (unfold w; lra).
  assert (- A / w + / 65 <= ln (exp (- A / w) + exp (- approx2 n 1 / w))) as L.
  { assert (exp (- A / w) * (65 / 64) <= exp (- A / w) + exp (- approx2 n 1 / w)) as M.
    { assert (exp (- A / w) * / 64 <= exp (- approx2 n 1 / w)) as Q; [| lra].
      assert (/ 64 <= exp (- 4)) as E4. { replace (-4) with (Ropp 4) by lra. rewrite exp_Ropp. apply Rinv_le_contravar; [apply exp_pos |]. replace 64 with (2 ^ 6) by lra. rewrite <- (exp_ln (2 ^ 6)) by lra. rewrite ln_pow by lra.
        replace (INR 6) with 6 by (rewrite INR_IZR_INZ; reflexivity). pose proof ln2_lo. left. apply exp_increasing. lra. }
      apply Rle_trans with (exp (- A / w) * exp (- 4)); [apply Rmult_le_compat_l; [left; apply exp_pos | exact E4] |]. rewrite <- exp_plus.
      assert (- A / w + - 4 <= - approx2 n 1 / w) as Q.
      { apply Rmult_le_reg_r with w; [exact Pw |]. replace ((- A / w + - 4) * w) with (- A - 4 * w) by (field; lra). replace (- approx2 n 1 / w * w) with (- approx2 n 1) by (field; lra). unfold w. lra. }
      destruct (Rle_lt_or_eq_dec _ _ Q) as [Q' | ->]; [left; now apply exp_increasing | lra]. }
    apply ln_le' in M; [| pose proof (exp_pos (- A / w)); lra]. rewrite ln_mult, ln_exp in M; [| apply exp_pos | lra].
    pose proof (ln_sub (65 / 64) 1 ltac:(lra) ltac:(lra)) as S. rewrite ln_1 in S. lra. }
  apply Rmult_le_compat_l with (r := w) in L; [| lra]. replace (w * (- A / w + / 65)) with (- A + w / 65) in L by (field; lra). unfold w in *. lra.
Qed.
