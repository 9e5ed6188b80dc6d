(** Proofs about model/Alloc.v. *)
From Verif.model Require Import Base Alloc.
From Verif.spec Require Import AllocSpec.
From Verif.proof Require Import BaseProof.
Local Open Scope Z_scope.

Lemma wrap64_id z : 0 <= z < 2 ^ 64 -> wrap64 z = z.
Proof. intros H. unfold wrap64. apply Z.mod_small. exact H. Qed.

Lemma assert_aligned_iff k a : 0 <= k < 64 ->
  assert_aligned (2 ^ k) a = if a mod 2 ^ k =? 0 then Ok tt else Fail.
Proof.
  intros Hk. unfold assert_aligned.
  assert (0 < 2 ^ k <= 2 ^ 63) as HP.
  { split; [apply Z.pow_pos_nonneg; lia | apply Z.pow_le_mono_r; lia]. }
  rewrite wrap64_id by lia. replace (2 ^ k - 1) with (Z.ones k) by (rewrite Z.ones_equiv; lia).
  rewrite Z.land_ones by lia. unfold dassert. reflexivity.
Qed.

Section Run.
Variables (dl : nat) (sz k : Z).
Hypothesis (Hsz : 0 < sz) (Hk : 0 <= k < 64).

Lemma run_ok cs :
  Forall (fun c => match c with Allocate _ (Some a) => a mod 2 ^ k = 0 | _ => True end) cs ->
  exists rs calls, heap_run dl sz (2 ^ k) cs = Ok (rs, calls).
Proof.
  induction 1 as [| c cs H HF (rs & calls & IH)]; [now do 2 eexists |].
  destruct c as [n [a |] | p n]; cbn [heap_run]; unfold allocate; cbn [obind].
  - assert ((if (3 <=? dl)%nat then assert_aligned (2 ^ k) a else Ok tt) = Ok tt) as ->.
    { destruct (3 <=? dl)%nat; [| reflexivity]. rewrite assert_aligned_iff by exact Hk. now rewrite H. }
    cbn [obind]. rewrite IH. cbn [obind]. now do 2 eexists.
  - rewrite IH. cbn [obind]. now do 2 eexists.
  - rewrite IH. cbn [obind]. now do 2 eexists.
Qed.

Definition blocks (owned : list (Z * Z)) : list (Z * Z) := map (fun x => (fst x, snd x * sz)) owned.

Fixpoint inv (owned : list (Z * Z)) : Prop :=
  match owned with
  | [] => True
  | (a, n) :: t => 0 <= n /\ memalign_ok (2 ^ k) (blocks t) a (n * sz) /\ inv t
  end.

Lemma inv_in owned p n : inv owned -> In (p, n) owned ->
  p mod 2 ^ k = 0 /\ 0 <= p /\ 0 <= n /\ p + n * sz <= 2 ^ 64 /\ (p = 0 -> n = 0).
Proof.
  induction owned as [| (a, m) t IH]; [contradiction |]. intros (Hm & (A & B & C) & HI) [E | Hin].
  - injection E as -> ->. destruct C as [(-> & C) | (C & _)].
    + assert (n = 0) by nia. subst. repeat split; auto; lia.
    + repeat split; auto; lia.
  - now apply IH.
Qed.

Lemma give_back_in p n owned owned' : give_back p n owned = Some owned' ->
  In (p, n) owned /\ incl owned' owned.
Proof.
  revert owned'. induction owned as [| (q, m) t IH]; intros owned' H; [discriminate |]. cbn in H.
  destruct ((q =? p) && (m =? n))%bool eqn:E.
  - injection H as <-. apply andb_true_iff in E. destruct E as [E1 E2].
    apply Z.eqb_eq in E1, E2. subst. split; [now left | now apply incl_tl].
  - destruct (give_back p n t) as [t' |] eqn:G; [| discriminate]. injection H as <-.
    destruct (IH _ eq_refl) as [H1 H2]. split; [now right |].
    apply incl_cons; [now left | now apply incl_tl].
Qed.

Lemma blocks_incl l l' : incl l l' -> incl (blocks l) (blocks l').
Proof. intros H x Hx. apply in_map_iff in Hx. destruct Hx as (y & <- & Hy). apply in_map_iff. exists y. auto. Qed.

Lemma memalign_incl l l' a b : incl l l' -> memalign_ok (2 ^ k) l' a b -> memalign_ok (2 ^ k) l a b.
Proof. intros H (A & B & [C | (C & D)]); split; [exact A | split; [exact B | now left] | exact A | split; [exact B | right; auto]]. Qed.

Lemma give_back_drop p n owned owned' : inv owned -> give_back p n owned = Some owned' ->
  drop p (blocks owned) = Some (blocks owned') /\ inv owned'.
Proof.
  revert owned'. induction owned as [| (q, m) t IH]; intros owned' HI H; [discriminate |]. cbn in H.
  pose proof HI as (Hm & HM & HT). cbn [blocks map drop fst snd].
  destruct ((q =? p) && (m =? n))%bool eqn:E.
  - injection H as <-. apply andb_true_iff in E. destruct E as [E1 E2]. rewrite E1. split; [reflexivity | exact HT].
  - destruct (give_back p n t) as [t' |] eqn:G; [| discriminate]. injection H as <-.
    destruct (give_back_in _ _ _ _ G) as [Hin Hincl].
    destruct (IH _ HT eq_refl) as [H1 H2].
    destruct (Z.eqb_spec q p) as [-> | Hne].
    + exfalso. destruct (inv_in _ _ _ HT Hin) as (_ & _ & Hn & _ & H0).
      destruct HM as (_ & _ & [(-> & Hm0) | (Hp & HA)]).
      * assert (m = 0) by nia. rewrite (H0 eq_refl) in E. subst m. discriminate E.
      * specialize (HA (p, n * sz)). destruct HA as [HA | HA].
        { apply in_map_iff. now exists (p, n). }
        all: cbn in HA; lia.
    + fold (blocks t). rewrite H1. split; [reflexivity |].
      split; [exact Hm | split; [| exact H2]]. eapply memalign_incl; [apply blocks_incl; exact Hincl | exact HM].
Qed.

Lemma inv_usable owned : inv owned -> all_usable sz (2 ^ k) owned.
Proof.
  intros HI. split.
  - intros p n Hin. destruct (inv_in _ _ _ HI Hin) as (A & B & _ & C & _). auto.
  - induction owned as [| (a, m0) t IH]; [intros [] j; discriminate |].
    assert (forall j q n, nth_error t j = Some (q, n) -> apart a (m0 * sz) q (n * sz)) as HH.
    { intros j q n Hj. apply nth_error_In in Hj. destruct HI as (H0 & (_ & _ & C) & HT).
      destruct (inv_in _ _ _ HT Hj) as (_ & Hq & Hn & _ & _). destruct C as [(-> & C) | (C & D)].
      - left. lia.
      - specialize (D (q, n * sz)). destruct D as [D | D].
        { apply in_map_iff. now exists (q, n). }
        all: cbn in D; unfold apart; nia. }
    intros [| i] [| j] p m q n Hij Hi Hj; cbn in Hi, Hj.
    + now contradiction Hij.
    + injection Hi as <- <-. eauto.
    + injection Hj as <- <-. destruct (HH _ _ _ Hi) as [G | G]; [now right | now left].
    + apply (IH (proj2 (proj2 HI)) i j p m q n); auto.
Qed.

Lemma run_inv cs : forall rs calls owned last, inv owned ->
  heap_run dl sz (2 ^ k) cs = Ok (rs, calls) -> user_ok sz owned cs rs last ->
  library_ok (blocks owned) calls -> frees_ok (blocks owned) calls /\ inv last.
Proof.
  induction cs as [| c cs IH]; intros rs calls owned last HI HR HU HL.
  - cbn in HR. injection HR as <- <-. cbn in HU. subst last. now split.
  - destruct c as [n answer | p n]; cbn [heap_run] in HR.
    + unfold allocate in HR.
      assert (exists r rs' c', rs = r :: rs' /\ calls = Memalign (2 ^ k) (wrap64 (n * sz)) answer :: c' /\
        heap_run dl sz (2 ^ k) cs = Ok (rs', c') /\ r = match answer with Some a => Got a | None => Bad_alloc end) as
        (r & rs' & c' & -> & -> & HR' & ->).
      { destruct answer as [a |].
        - destruct (if (3 <=? dl)%nat then assert_aligned (2 ^ k) a else Ok tt); [| discriminate HR ..].
          cbn [obind] in HR. destruct (heap_run dl sz (2 ^ k) cs) as [(rs', c') | |]; [| discriminate HR ..].
          cbn [obind] in HR. injection HR as <- <-. now exists (Got a), rs', c'.
        - cbn [obind] in HR. destruct (heap_run dl sz (2 ^ k) cs) as [(rs', c') | |]; [| discriminate HR ..].
          cbn [obind] in HR. injection HR as <- <-. now exists Bad_alloc, rs', c'. }
      cbn [user_ok] in HU. destruct HU as (Hn & Hmax & HU).
      rewrite wrap64_id in * by nia.
      destruct answer as [a |].
      * cbn [library_ok] in HL. destruct HL as [HM HL]. cbn [frees_ok].
        apply (IH rs' c' ((a, n) :: owned) last); auto. split; auto.
      * now apply (IH rs' c' owned last).
    + destruct (heap_run dl sz (2 ^ k) cs) as [(rs', c') | |] eqn:HR'; [| discriminate HR ..].
      cbn [obind] in HR. injection HR as <- <-. cbn [user_ok] in HU.
      destruct (give_back p n owned) as [owned' |] eqn:G; [| contradiction].
      destruct (give_back_drop _ _ _ _ HI G) as [D HI']. cbn [app deallocate library_ok frees_ok] in HL |- *.
      rewrite D in HL |- *. now apply (IH rs' c' owned' last).
Qed.
End Run.
