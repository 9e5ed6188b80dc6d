(** C89: a collapsed Gibbs sampler built on the library samples the posterior over clusterings. *)
From Coq Require Import Permutation Reals Lra.
From Verif.spec Require Import DriverSpec GroupSpec PartitionSpec LgammaSpec SystemSpec GibbsSpec.
From Verif.model Require Import Base Num NumR Driver PitmanYor Component Slave BB GP BNB NICH DD Sparse DPD Random System Gibbs.
From stdpp Require Import gmap.
From Verif.proof Require Import BaseProof LgammaProof PitmanYorR ScoreProof SystemProof ClientProof GibbsClusters GibbsProof GibbsMove.
Local Open Scope Z_scope.

(** Parameters in their domains, and rows the model can read: counts whose total fits 32 bits for
    GammaPoisson and BetaNegativeBinomial, a category below the dimension for DirichletDiscrete, a
    known value other than the reserved one for DirichletProcessDiscrete. *)
Definition valid_feature {W} (data : list W) (k : kind W) : Prop :=
  match k with
  | KBB _ sh _ => (0 < bb_alpha sh /\ 0 < bb_beta sh)%R
  | KGP _ sh pr => (0 < gp_alpha sh /\ 0 < gp_inv_beta sh)%R /\ small_counts (map pr data)
  | KBNB _ sh pr => (0 < bnb_alpha sh /\ 0 < bnb_beta sh)%R /\ 0 < bnb_r sh /\ small_counts (map pr data)
  | KNICH _ sh _ => (0 < ni_kappa sh /\ 0 < ni_nu sh /\ 0 < ni_sigmasq sh)%R
  | KDD _ sh pr => List.Forall (fun a => 0 < a)%R (dd_alphas sh) /\ List.Forall (fun w => 0 <= pr w < Z.of_nat (dd_dim sh)) data
  | KDPD fast sh pr => (0 < dp_alpha sh)%R /\ (forall v b, dp_betas sh !! v = Some b -> 0 < b)%R /\
      (fast = true -> dp_betas sh !! OTHER = None) /\ List.Forall (fun w => pr w <> OTHER /\ dp_betas sh !! pr w <> None) data
  end.
(** Log gamma with its functional equation, a Pitman-Yor prior in its domain, valid features, data that
    32 bit counters can count. *)
Definition setting {W} (lg : R -> R) (m : py R) (ks : list (kind W)) (data : list W) : Prop :=
  lgamma_like lg /\ (0 < alpha m /\ 0 <= disc m < 1)%R /\ List.Forall (valid_feature data) ks /\ Z.of_nat (length data) < 2 ^ 31.
(** How many features are NormalInverseChiSq. *)
Fixpoint nich_features {W} (ks : list (kind W)) : nat :=
  match ks with [] => O | KNICH _ _ _ :: t => S (nich_features t) | _ :: t => nich_features t end.
(** Row [i] has a group. *)
Definition is_seated {W} (c : client W R) (i : nat) : Prop := cl_assign c !! i <> None.

Lemma valid_good {W} (data : list W) k : valid_feature data k -> good_kind data k.
Proof. destruct k; cbn [valid_feature good_kind]; tauto. Qed.
Lemma setting_good {W} lg m ks (data : list W) : setting lg m ks data -> lgamma_like lg /\ Z.of_nat (length data) < 2 ^ 31 /\ py_ok m /\ List.Forall (good_kind data) ks.
Proof. intros (A & B & C & D). repeat split; try apply A; try apply B; auto. revert C. apply List.Forall_impl. intro k. apply valid_good. Qed.
Lemma gaps {W} (ks : list (kind W)) : G0 ks = (INR (nich_features ks) * pi_gap)%R.
Proof.
  unfold G0. induction ks as [|k ks IH]; [cbn; lra|]. destruct k; cbn [map rsum gap nich_features]; rewrite IH; try lra. rewrite S_INR. lra.
Qed.

(** Every state the sampler reaches has exactly one joint score, and it depends on the clustering only. *)
Theorem C89_joint_score : forall (W : Type) lg dl m ks (data : list W) c, setting lg m ks data -> reached lg dl m ks data 0 c ->
  (exists J, joint lg dl m ks (cl_sys c) J /\ forall J', joint lg dl m ks (cl_sys c) J' -> J' = J) /\
  (forall c' J J', reached lg dl m ks data 0 c' -> same_clusters (cl_assign c) (cl_assign c') ->
     joint lg dl m ks (cl_sys c) J -> joint lg dl m ks (cl_sys c') J' -> J = J').
Proof.
  intros W lg dl m ks data c Hs Hr. destruct (setting_good _ _ _ _ Hs) as (Hlg & Hl & Hm & Hk).
  destruct (reached_cinv lg dl data Hl m ks Hk 0 c ltac:(lia) Hr) as (L & n & seated & I & _).
  pose proof (fun J => joint_iff lg Hlg dl data Hl m ks Hm Hk c L n seated J I) as Hj. split.
  - exists (Jrows lg m ks (map snd L)). split; [now apply Hj|]. intros J' X. now apply Hj in X.
  - intros c' J J' Hr' Hc X X'. destruct (reached_cinv lg dl data Hl m ks Hk 0 c' ltac:(lia) Hr') as (L' & n' & seated' & I' & _).
    apply Hj in X as ->. apply (joint_iff lg Hlg dl data Hl m ks Hm Hk _ _ _ _ _ I') in X' as ->.
    exact (J_clusters lg dl data m ks Hk _ _ _ _ _ _ _ _ I I' Hc).
Qed.
Print Assumptions C89_joint_score.

(** The score of a row against a group is the change of the joint score when the row joins the group;
    the several empty groups share the weight of a new one; every NormalInverseChiSq feature adds the
    difference between two ways its code writes half the logarithm of pi. *)
Theorem C89_scores_are_increments : forall (W : Type) lg dl m ks (data : list W) c i w, setting lg m ks data -> reached lg dl m ks data 1 c ->
  nth_error data i = Some w -> ~ is_seated c i ->
  exists sc J, sys_score_value (N:=NumR lg) dl m (cl_sys c) w (length (counts (cdriver (sy_py (cl_sys c))))) = Ok sc /\ joint lg dl m ks (cl_sys c) J /\
    length sc = length (counts (cdriver (sy_py (cl_sys c)))) /\
    forall p size, nth_error (counts (cdriver (sy_py (cl_sys c)))) p = Some size ->
      exists c1 J1, client_run1 (N:=NumR lg) dl m data c (Seat i (fun _ => p)) = Ok c1 /\ joint lg dl m ks (cl_sys c1) J1 /\
        nth_error sc p = Some (J1 - J + INR (nich_features ks) * (/ 2 * (11447298858493991 / 10000000000000000 - ln (314159265358979 / 100000000000000))) -
          (if size =? 0 then ln (INR (num_empty (counts (cdriver (sy_py (cl_sys c)))))) else 0))%R.
Proof.
  intros W lg dl m ks data c i w Hs Hr Hw Hi. destruct (setting_good _ _ _ _ Hs) as (Hlg & Hl & Hm & Hk).
  destruct (reached_cinv lg dl data Hl m ks Hk 1 c ltac:(lia) Hr) as (L & n & seated & I & Hn).
  assert (Ni : ~ In i seated). { intro X. apply (ci_seated _ _ _ _ _ _ _ _ _ I) in X as [g X]. apply Hi. unfold is_seated. congruence. }
  pose proof (si_counts _ _ _ _ _ _ _ (ci_sys _ _ _ _ _ _ _ _ _ I)) as Ec.
  eexists _, (Jrows lg m ks (map snd L)). split; [exact (scores_eq lg Hlg dl data Hl m ks Hm Hk c L n seated i w I Hw Ni)|].
  assert (HJ : joint lg dl m ks (cl_sys c) (Jrows lg m ks (map snd L))) by now apply (joint_iff lg Hlg dl data Hl m ks Hm Hk _ _ _ _ _ I).
  split; [exact HJ|]. split; [rewrite Ec; now rewrite !map_length|]. intros p size Hp.
  assert (Hpl : (p < length L)%nat). { rewrite <- (map_length csize), <- Ec. apply nth_error_Some. congruence. }
  destruct (nth_error L p) as [[g xs]|] eqn:Ep; [|apply nth_error_None in Ep; lia]. apply nth_error_split in Ep as (L1 & L2 & EL & <-).
  pose proof I as I2. rewrite EL in I2.
  destruct (seat_result lg Hlg dl data Hl m ks Hm Hk c L1 g xs L2 n seated i w I2 Hw Ni Hn) as (c1 & L2' & n1 & E1 & _ & I1 & _).
  exists c1, (Jrows lg m ks (map snd (L1 ++ (g, w :: xs) :: L2'))). split; [exact E1|].
  assert (HJ1 : joint lg dl m ks (cl_sys c1) (Jrows lg m ks (map snd (L1 ++ (g, w :: xs) :: L2')))) by now apply (joint_iff lg Hlg dl data Hl m ks Hm Hk _ _ _ _ _ I1).
  split; [exact HJ1|].
  rewrite (increments lg Hlg dl data Hl m ks Hm Hk c L n seated i w (length L1) c1 _ _ I Hw Ni Hn Hpl E1 HJ HJ1), gaps. unfold pi_gap.
  now rewrite (nth_error_nth _ _ 1 Hp).
Qed.
Print Assumptions C89_scores_are_increments.

(** One move draws from the full conditional: from [c], any two clusterings that differ from it at row [i]
    only are reached with positive probabilities in the proportion of the exponentials of their joint
    scores. *)
Theorem C89_full_conditional : forall (W : Type) lg dl m ks (data : list W) c c1 c2 i J1 J2, setting lg m ks data ->
  reached lg dl m ks data 1 c -> reached lg dl m ks data 0 c1 -> reached lg dl m ks data 0 c2 ->
  is_seated c i -> is_seated c1 i -> is_seated c2 i ->
  agree_off i (cl_assign c) (cl_assign c1) -> agree_off i (cl_assign c) (cl_assign c2) ->
  joint lg dl m ks (cl_sys c1) J1 -> joint lg dl m ks (cl_sys c2) J2 ->
  (exists pr, move_prob lg dl m data c i (cl_assign c1) pr) /\
  forall pr1 pr2, move_prob lg dl m data c i (cl_assign c1) pr1 -> move_prob lg dl m data c i (cl_assign c2) pr2 ->
    (0 < pr1 /\ pr1 / pr2 = exp J1 / exp J2)%R.
Proof.
  intros W lg dl m ks data c c1 c2 i J1 J2 Hs Hr Hr1 Hr2 Hi Hi1 Hi2 A1 A2 HJ1 HJ2. destruct (setting_good _ _ _ _ Hs) as (Hlg & Hl & Hm & Hk).
  destruct (reached_cinv lg dl data Hl m ks Hk 1 c ltac:(lia) Hr) as (L & n & seated & I & Hn).
  destruct (reached_cinv lg dl data Hl m ks Hk 0 c1 ltac:(lia) Hr1) as (L1 & n1 & seated1 & I1 & _).
  destruct (reached_cinv lg dl data Hl m ks Hk 0 c2 ltac:(lia) Hr2) as (L2 & n2 & seated2 & I2 & _).
  apply (seated_in lg dl data m ks _ _ _ _ _ I) in Hi. apply (seated_in lg dl data m ks _ _ _ _ _ I1) in Hi1. apply (seated_in lg dl data m ks _ _ _ _ _ I2) in Hi2.
  split.
  - destruct (move_law lg Hlg dl data Hl m ks Hm Hk _ _ _ _ i _ _ _ _ I Hi Hn I1 Hi1 A1) as (_ & L0 & _ & w & _ & _ & _ & Iff). eexists. now apply Iff.
  - intros pr1 pr2 P1 P2. pose proof (move_pos lg Hlg dl data Hl m ks Hm Hk _ _ _ _ i _ _ _ _ pr1 I Hi Hn I1 Hi1 A1 P1) as X1.
    pose proof (move_pos lg Hlg dl data Hl m ks Hm Hk _ _ _ _ i _ _ _ _ pr2 I Hi Hn I2 Hi2 A2 P2) as X2. split; [exact X1|].
    pose proof (conditional lg Hlg dl data Hl m ks Hm Hk _ _ _ _ i _ _ _ _ _ _ _ _ J1 J2 pr1 pr2 I Hi Hn I1 Hi1 A1 I2 Hi2 A2 HJ1 HJ2 P1 P2) as X.
    pose proof (exp_pos J2). apply Rmult_eq_reg_r with (r := (pr2 * exp J2)%R); [|nra]. field_simplify; [|lra..]. lra.
Qed.
Print Assumptions C89_full_conditional.

(** A move is reversible with respect to the exponential of the joint score. *)
Theorem C89_detailed_balance : forall (W : Type) lg dl m ks (data : list W) c c' i J J' pr pr', setting lg m ks data ->
  reached lg dl m ks data 1 c -> reached lg dl m ks data 1 c' -> is_seated c i -> is_seated c' i -> agree_off i (cl_assign c) (cl_assign c') ->
  joint lg dl m ks (cl_sys c) J -> joint lg dl m ks (cl_sys c') J' ->
  move_prob lg dl m data c i (cl_assign c') pr -> move_prob lg dl m data c' i (cl_assign c) pr' ->
  (exp J * pr = exp J' * pr')%R.
Proof.
  intros W lg dl m ks data c c' i J J' pr pr' Hs Hr Hr' Hi Hi' Ha HJ HJ' Hp Hp'. destruct (setting_good _ _ _ _ Hs) as (Hlg & Hl & Hm & Hk).
  destruct (reached_cinv lg dl data Hl m ks Hk 1 c ltac:(lia) Hr) as (L & n & seated & I & Hn).
  destruct (reached_cinv lg dl data Hl m ks Hk 1 c' ltac:(lia) Hr') as (L' & n' & seated' & I' & Hn').
  apply (seated_in lg dl data m ks _ _ _ _ _ I) in Hi. apply (seated_in lg dl data m ks _ _ _ _ _ I') in Hi'.
  exact (balance lg Hlg dl data Hl m ks Hm Hk _ _ _ _ i _ _ _ _ J J' pr pr' I Hi Hn I' Hi' Hn' Ha HJ HJ' Hp Hp').
Qed.
Print Assumptions C89_detailed_balance.

(** The posterior is stationary.  The states [cs] stand for all the clusterings that differ from that of
    [c] at row [i] only, each once; with weights exp of the joint score before the move, the weight of
    the clustering of [c] after it is exp of its joint score. *)
Theorem C89_stationary : forall (W : Type) lg dl m ks (data : list W) c i J, setting lg m ks data ->
  reached lg dl m ks data 2 c -> is_seated c i -> joint lg dl m ks (cl_sys c) J ->
  exists cs, List.Forall (fun c1 => reached lg dl m ks data 1 c1 /\ is_seated c1 i /\ agree_off i (cl_assign c) (cl_assign c1)) cs /\
    ForallOrdPairs (fun c1 c2 => ~ same_clusters (cl_assign c1) (cl_assign c2)) cs /\
    (forall c', reached lg dl m ks data 0 c' -> is_seated c' i -> agree_off i (cl_assign c) (cl_assign c') ->
       exists c1, In c1 cs /\ same_clusters (cl_assign c1) (cl_assign c')) /\
    (exists Js ps, List.Forall2 (fun c1 J1 => joint lg dl m ks (cl_sys c1) J1) cs Js /\
       List.Forall2 (fun c1 pr => move_prob lg dl m data c1 i (cl_assign c) pr) cs ps /\
       rsum (map (fun Jp => exp (fst Jp) * snd Jp)%R (combine Js ps)) = exp J).
Proof.
  intros W lg dl m ks data c i J Hs Hr Hi HJ. destruct (setting_good _ _ _ _ Hs) as (Hlg & Hl & Hm & Hk).
  destruct (reached_cinv lg dl data Hl m ks Hk 2 c ltac:(lia) Hr) as (L & n & seated & I & Hn).
  pose proof Hi as Hi0. apply (seated_in lg dl data m ks _ _ _ _ _ I) in Hi.
  destruct (stationary lg Hlg dl data Hl m ks Hm Hk c L n seated i I Hi ltac:(lia)) as (cs & F & Pw & Cov & Sum).
  exists cs. split; [|split; [exact Pw|split]].
  - revert F. apply List.Forall_impl. intros c1 ((p & E) & A & L1 & n1 & s1 & I1 & Hi1 & _). split; [|split; [|exact A]].
    + exact (reached_more lg dl data Hl m ks Hk 1 c i ltac:(lia) Hr Hi0 p c1 E).
    + unfold is_seated. apply (ci_seated _ _ _ _ _ _ _ _ _ I1) in Hi1 as [g X]. congruence.
  - intros c' Hr' Hi' Ha. destruct (reached_cinv lg dl data Hl m ks Hk 0 c' ltac:(lia) Hr') as (L' & n' & seated' & I' & _).
    apply (seated_in lg dl data m ks _ _ _ _ _ I') in Hi'. eapply Cov; eauto.
  - assert (X : exists Js ps, List.Forall2 (fun c1 J1 => joint lg dl m ks (cl_sys c1) J1) cs Js /\
       List.Forall2 (fun c1 pr => move_prob lg dl m data c1 i (cl_assign c) pr) cs ps).
    { clear Pw Cov Sum. induction F as [|c1 cs ((p & E) & A & L1 & n1 & s1 & I1 & Hi1 & Hn1) F (Js & ps & FJ & Fp)]; [exists [], []; split; constructor|].
      destruct (move_law lg Hlg dl data Hl m ks Hm Hk _ _ _ _ i _ _ _ _ I1 Hi1 Hn1 I Hi (same_sym _ _ A)) as (_ & L0 & _ & w & _ & _ & _ & Iff).
      exists (Jrows lg m ks (map snd L1) :: Js). eexists (_ :: ps). split; constructor; [|exact FJ|now apply Iff|exact Fp].
      now apply (joint_iff lg Hlg dl data Hl m ks Hm Hk _ _ _ _ _ I1). }
    destruct X as (Js & ps & FJ & Fp). exists Js, ps. split; [exact FJ|]. split; [exact Fp|]. now apply Sum.
Qed.
Print Assumptions C89_stationary.

(** Three rows, three features, two states: rows 0 and 1 together or apart. *)
Definition ex_kinds : list (kind Z) :=
  [KBB true (mk_bb_shared 1 2)%R Z.even; KNICH false (mk_nich_shared 0 1 1 1)%R IZR; KDD true (mk_dd_shared [1; 2]%R) (fun z => z mod 2)].
Definition ex_state lg (k : kind Z) : fstate Z R :=
  mk_fstate (feature_of lg k) (match k return slave (ft_vs (feature_of lg k)) with
    | KBB true _ _ => mk_slave (S:=bb_vscorer (N:=NumR lg)) [] (mk_bb_vs [] [])
    | KBB false _ _ => mk_slave (S:=small_vscorer (C:=BB R) (bb_gs lg)) [] tt
    | KGP true _ _ => mk_slave (S:=gp_vscorer (N:=NumR lg)) [] (mk_gp_vs [] [] [])
    | KGP false _ _ => mk_slave (S:=small_vscorer (C:=GP R) (gp_gs lg)) [] tt
    | KBNB true _ _ => mk_slave (S:=bnb_vscorer (N:=NumR lg)) [] (mk_bnb_vs [] [] [])
    | KBNB false _ _ => mk_slave (S:=small_vscorer (C:=BNB R) (bnb_gs lg)) [] tt
    | KNICH true _ _ => mk_slave (S:=nich_vscorer (N:=NumR lg)) [] (mk_nich_vs [] [] [] [])
    | KNICH false _ _ => mk_slave (S:=small_vscorer (C:=NICH R) (nich_gs lg)) [] tt
    | KDD true _ _ => mk_slave (S:=dd_vscorer (N:=NumR lg)) [] (mk_dd_vs None [] [])
    | KDD false _ _ => mk_slave (S:=small_vscorer (C:=DD R) (dd_score_value (N:=NumR lg))) [] tt
    | KDPD true _ _ => mk_slave (S:=dpd_vscorer (N:=NumR lg)) [] (mk_dpd_vs ∅ [])
    | KDPD false _ _ => mk_slave (S:=small_vscorer (C:=DPD R) (dpd_score_value (N:=NumR lg))) [] tt
    end).
Example C89_nonvacuous : forall dl,
  setting lg_witness (mk_py 1 (1 / 2))%R ex_kinds [5; 4; 7] /\
  exists c c', reached lg_witness dl (mk_py 1 (1 / 2))%R ex_kinds [5; 4; 7] 2 c /\ reached lg_witness dl (mk_py 1 (1 / 2))%R ex_kinds [5; 4; 7] 2 c' /\
    is_seated c 1 /\ is_seated c' 1 /\ agree_off 1 (cl_assign c) (cl_assign c') /\ ~ same_clusters (cl_assign c) (cl_assign c').
Proof.
  intro dl.
  assert (S : setting lg_witness (mk_py 1 (1 / 2))%R ex_kinds [5; 4; 7]).
  { split; [exact lg_witness_ok|]. split; [cbn; lra|]. split; [|cbn; lia].
    unfold ex_kinds. repeat apply List.Forall_cons; [cbn; lra|cbn; lra| |apply List.Forall_nil]. split.
    - cbn. repeat (apply List.Forall_cons; [lra|]). apply List.Forall_nil.
    - apply List.Forall_forall. intros w _. cbn [dd_dim dd_alphas length]. apply Z.mod_pos_bound. lia. }
  split; [exact S|]. destruct (setting_good _ _ _ _ S) as (Hlg & Hl & Hm & Hk).
  destruct (two_states lg_witness Hlg dl [5; 4; 7] Hl _ ex_kinds Hm Hk [] (map (ex_state lg_witness) ex_kinds) 5 4 [7] eq_refl eq_refl)
    as (c & c' & R & R' & E & g & Hg & E').
  exists c, c'. split; [exact R|]. split; [exact R'|]. unfold is_seated, agree_off. rewrite E, E'. split; [|split; [|split]].
  - discriminate. - rewrite lookup_insert_ne, lookup_singleton by discriminate. discriminate.
  - rewrite !delete_insert_ne by discriminate. rewrite !delete_singleton. split; reflexivity.
  - intros [_ X]. specialize (X 0%nat 1%nat). rewrite !lookup_insert, !(lookup_insert_ne _ 0%nat 1%nat), !lookup_singleton in X by discriminate.
    assert (Y : Some 0 = Some g) by (apply X; [discriminate|discriminate|reflexivity]). congruence.
Qed.
