(** The table kept by DirichletDiscrete's value scorer is a function of the groups. *)
From Verif.spec Require Import SlaveSpec VectorSpec.
From Verif.model Require Import Base Packed Num VectorMath Component Slave SlaveRun DD.
From Verif.proof Require Import BaseProof VectorProof PackedProof LoopProof SlaveProof.

Lemma mapi_ext {A B} (f g : nat -> A -> B) l : (forall i x, nth_error l i = Some x -> f i x = g i x) -> mapi f l = mapi g l.
Proof.
  intro H. apply nth_error_ext. intro i. rewrite !nth_mapi. destruct (nth_error l i) eqn:E; cbn [option_map]; [|reflexivity].
  now rewrite (H _ _ E).
Qed.
Lemma upd_same {A} (l : list A) i x : nth_error l i = Some x -> upd l i x = l.
Proof.
  intro H. apply nth_error_ext. intro j. destruct (PeanoNat.Nat.eq_dec j i) as [->|Hne].
  - rewrite nth_error_upd_eq; [now rewrite H|]. eapply nth_lt, H.
  - apply nth_error_upd_ne. lia.
Qed.
Lemma as_mapi {A B} (d : B) (sc : list B) (al : list A) : length sc = length al -> sc = mapi (fun v _ => nth v sc d) al.
Proof.
  intro H. apply nth_error_ext. intro i. rewrite nth_mapi. destruct (nth_error al i) as [a|] eqn:E; cbn [option_map].
  - apply nth_error_nth'. apply nth_lt in E. lia.
  - apply nth_error_None. apply nth_error_None in E. lia.
Qed.
Lemma upd_mapi {A B} (row row' : nat -> A -> B) al v a : nth_error al v = Some a ->
  (forall w b, w <> v -> nth_error al w = Some b -> row' w b = row w b) ->
  upd (mapi row al) v (row' v a) = mapi row' al.
Proof.
  intros Hv H. apply nth_error_ext. intro i. rewrite (nth_mapi row'). destruct (PeanoNat.Nat.eq_dec i v) as [->|Hne].
  - rewrite nth_error_upd_eq by (rewrite mapi_length; eapply nth_lt, Hv). now rewrite Hv.
  - rewrite nth_error_upd_ne by lia. rewrite nth_mapi. destruct (nth_error al i) eqn:E; cbn [option_map]; [|reflexivity].
    now rewrite H.
Qed.
Lemma row_loop {A B} (row row' : nat -> A -> B) (al : list A) (body : nat -> list B -> outcome (list B)) :
  (forall v a sc, nth_error al v = Some a -> length sc = length al -> nth_error sc v = Some (row v a) ->
     body v sc = Ok (upd sc v (row' v a))) ->
  vfor 0 (length al) body (mapi row al) = Ok (mapi row' al).
Proof.
  intro Hb. rewrite <- (mapi_length row al) at 1.
  rewrite (vfor_mapi body (fun i x => match nth_error al i with Some a => row' i a | None => x end)).
  - f_equal. apply nth_error_ext. intro i. rewrite !nth_mapi.
    destruct (nth_error al i) eqn:E; cbn [option_map]; reflexivity.
  - intros i l' x Hl Hx Hx'. rewrite mapi_length in Hl. rewrite nth_mapi in Hx.
    destruct (nth_error al i) as [a|] eqn:E; cbn [option_map] in Hx; [|discriminate]. injection Hx as <-.
    apply Hb; auto.
Qed.

Section DDS.
  Context {F : Type} {N : Num F}.
  Variable sh : dd_shared F.
  Notation al := (dd_alphas sh).
  Notation dim := (dd_dim sh).

  Definition cnt (g : dd_group) (v : nat) : Z := nth v (dd_counts g) 0%Z.
  Definition dd_asum : F := fold_left nadd al (nof 0).
  Definition raw (v : nat) (a : F) (g : dd_group) : F := nadd a (nof (cnt g v)).
  Definition entry (v : nat) (a : F) (g : dd_group) : F := nlog (raw v a g).
  Definition tot (g : dd_group) : F := nadd dd_asum (nof (dd_count_sum g)).
  Definition dd_cache (gs : list dd_group) : dd_vs F :=
    mk_dd_vs (Some dd_asum) (mapi (fun v a => map (entry v a) gs) al) (map (fun g => nlog (tot g)) gs).
  Definition dd_okg (g : dd_group) : Prop := length (dd_counts g) = dim.
  Definition dd_okv (v : Z) : Prop := (0 <= v < Z.of_nat dim)%Z.
  Definition dd_fast (g : dd_group) (v : Z) : F :=
    nsub (nlog (nadd (nth (Z.to_nat v) al (nof 0)) (nof (cnt g (Z.to_nat v))))) (nlog (tot g)).

  Lemma cnt_get g v a : dd_okg g -> nth_error al v = Some a -> vget (dd_counts g) v = Ok (cnt g v).
  Proof.
    intros Hg Hv. apply vget_nth. apply nth_error_nth'. apply nth_lt in Hv. unfold dd_okg, dd_dim in Hg. lia.
  Qed.

  Lemma bump_inv dl g v n g' : dd_bump dl g v n = Ok g' -> dd_okg g ->
    dd_okv v /\ dd_okg g' /\ (forall w, w <> Z.to_nat v -> cnt g' w = cnt g w) /\
    dd_count_sum g' = (dd_count_sum g + n)%Z /\ cnt g' (Z.to_nat v) = (cnt g (Z.to_nat v) + n)%Z.
  Proof.
    unfold dd_bump, dd_okg, dd_okv, zget, zset. intros E Hg.
    destruct (dassert_at dl 1 _); cbn [obind] in E; try discriminate.
    destruct (i32 (dd_count_sum g + n)) as [s| |] eqn:Es; cbn [obind] in E; try discriminate.
    destruct (Z.ltb_spec v 0); cbn [obind] in E; try discriminate.
    destruct (vget (dd_counts g) (Z.to_nat v)) as [c| |] eqn:Ec; cbn [obind] in E; try discriminate.
    destruct (i32 (c + n)) as [c'| |] eqn:Ec'; cbn [obind] in E; try discriminate.
    destruct (vset (dd_counts g) (Z.to_nat v) c') as [cs| |] eqn:Ecs; cbn [obind] in E; try discriminate.
    injection E as <-. apply vset_inv in Ecs as [Hlt ->].
    assert (Hi : forall z r, i32 z = Ok r -> r = z).
    { intros z r. unfold i32. destruct (_ && _)%bool; [|discriminate]. now intros [= <-]. }
    apply Hi in Es, Ec'. apply vget_lt in Ec. apply nth_error_nth with (d := 0%Z) in Ec.
    unfold cnt. cbn [dd_counts dd_count_sum].
    split; [lia|]. split; [now rewrite length_upd|]. split; [|split].
    - intros w Hw. destruct (PeanoNat.Nat.lt_ge_cases w (length (dd_counts g))) as [Hl|Hl].
      + apply nth_error_nth. rewrite nth_error_upd_ne by lia. now apply nth_error_nth'.
      + rewrite !nth_overflow; rewrite ?length_upd; auto.
    - exact Es.
    - subst c'. rewrite Ec. apply nth_error_nth. now rewrite nth_error_upd_eq.
  Qed.

  Lemma dd_value_ok dl n gs i g v g' : Forall dd_okg gs -> nth_error gs i = Some g -> dd_bump dl g v n = Ok g' ->
    dd_vs_value dl sh (dd_cache gs) i g' v = Ok (dd_cache (upd gs i g')).
  Proof.
    intros HW Hg E. pose proof (Forall_nth_error _ _ _ _ HW Hg) as Wg.
    destruct (bump_inv _ _ _ _ _ E Wg) as (Hv & Wg' & Hc & _ & _). pose proof (nth_lt _ _ _ Hg) as Hi.
    destruct (vget_some al (Z.to_nat v)) as (a & Ha & Ea); [unfold dd_okv, dd_dim in Hv; lia|].
    unfold dd_vs_value, zget. rewrite dassert_at_true by (apply Z.ltb_lt; unfold dd_okv in Hv; lia). cbn [obind].
    destruct (Z.ltb_spec v 0); [unfold dd_okv in Hv; lia|]. rewrite Ea. cbn [obind].
    rewrite (cnt_get g' _ _ Wg' Ha). cbn [obind dd_cache ddv_scores ddv_shift ddv_alpha_sum]. unfold set2.
    rewrite (vget_nth _ _ (map (entry (Z.to_nat v) a) gs)) by (rewrite nth_mapi, Ha; reflexivity). cbn [obind].
    fold (raw (Z.to_nat v) a g'). fold (entry (Z.to_nat v) a g'). rewrite vset_map by exact Hi. cbn [obind].
    rewrite vset_ok by (rewrite mapi_length; eapply nth_lt, Ha). cbn [obind dd_alpha_sum_get ddv_alpha_sum].
    change (dd_alpha_sum_get (dd_cache gs)) with (Ok dd_asum). cbn [obind]. fold (tot g'). rewrite (vset_map (fun g => nlog (tot g))) by exact Hi. cbn [obind]. unfold dd_cache. do 2 f_equal.
    apply (upd_mapi _ (fun v a => map (entry v a) (upd gs i g'))); [exact Ha|].
    intros w b Hw Hb. rewrite map_upd. apply upd_same. rewrite (map_nth_error _ _ _ Hg). f_equal.
    unfold entry, raw. now rewrite Hc.
  Qed.

  Lemma asum_loop : vfor 0 dim (fun v a => let* x := vget al v in Ok (nadd a x)) (nof 0) = Ok dd_asum.
  Proof. unfold dd_dim, dd_asum. 
    change (vector_sum (length al) al = Ok (fold_left nadd al (nof 0))).
    rewrite vector_sum_spec by lia. unfold fold_first. now rewrite firstn_all. Qed.

  Lemma dd_init_ok dl t gs : Forall dd_okg gs ->
    exists t1, dd_vs_resize dl sh t (length gs) = Ok t1 /\ dd_vs_update_all dl sh t1 gs = Ok (dd_cache gs).
  Proof.
    intro HW. unfold dd_vs_resize.
    assert (HR : length (vec_resize [] (ddv_scores t) dim) = length al) by apply vec_resize_length.
    revert HR. generalize (vec_resize [] (ddv_scores t) dim). intros R0 HR. change dim with (length al) at 1.
    rewrite (as_mapi [] R0 al HR).
    rewrite (row_loop _ (fun v _ => vec_resize (nof 0) (nth v R0 []) (length gs))).
    2:{ intros v a sc Ha Hl Hr. rewrite (vget_nth _ _ _ Hr). cbn [obind]. apply vset_ok. eapply nth_lt, Hr. }
    cbn [obind]. eexists. split; [reflexivity|].
    match goal with |- context [mk_dd_vs _ ?r ?s] => set (rows := r); set (shift := s) end.
    unfold dd_vs_update_all. cbn [ddv_scores ddv_shift]. rewrite asum_loop. cbn [obind].
    match goal with |- context [vfor 0 (length gs) ?b (rows, shift)] =>
      destruct (vfor_inv (fun k p => length (fst p) = length al /\
          (forall v a, nth_error al v = Some a -> exists row, nth_error (fst p) v = Some row /\ colinv gs (raw v a) k row) /\
          colinv gs tot k (snd p)) b (length gs) 0 (rows, shift)) as ([sc1 sh1] & E & Hl & Hr & Hs) end.
    - cbn [fst snd]. split; [apply mapi_length|]. split.
      + intros v a Ha. unfold rows. rewrite nth_mapi, Ha. cbn [option_map]. eexists. split; [reflexivity|].
        apply colinv_0, vec_resize_length.
      + apply colinv_0, vec_resize_length.
    - intros i [sc sh1] Hi (Hl & Hr & Hs). cbn [fst snd] in *. destruct (vget_some gs i) as (g & Hg & Eg); [lia|].
      cbv beta. rewrite Eg. cbn [obind]. pose proof (Forall_nth_error _ _ _ _ HW Hg) as Wg.
      set (sc' := mapi (fun v a => upd (nth v sc []) i (raw v a g)) al).
      assert (Esc : vfor 0 dim (fun v sc => let* a := vget al v in let* c := vget (dd_counts g) v in
                 set2 sc v i (nadd a (nof c))) sc = Ok sc').
      { rewrite (as_mapi [] sc al Hl) at 1. apply row_loop. intros v a s Ha Hls Hrow.
        rewrite (vget_nth _ _ _ Ha), (cnt_get _ _ _ Wg Ha). cbn [obind]. unfold set2.
        rewrite (vget_nth _ _ _ Hrow). cbn [obind].
        destruct (Hr _ _ Ha) as (row & E1 & Hrow1). apply nth_error_nth with (d := []) in E1.
        rewrite E1. rewrite vset_ok by (destruct Hrow1 as [-> _]; eapply nth_lt, Hg). cbn [obind].
        apply vset_ok. eapply nth_lt, Hrow. }
      rewrite Esc. cbn [obind]. destruct (colinv_step _ _ _ _ _ Hs Hg) as [E2 H2]. fold (tot g). rewrite E2. cbn [obind].
      eexists. split; [reflexivity|]. cbn [fst snd]. split; [apply mapi_length|]. split; [|exact H2].
      intros v a Ha. unfold sc'. rewrite nth_mapi, Ha. cbn [option_map]. eexists. split; [reflexivity|].
      destruct (Hr _ _ Ha) as (row & E1 & Hrow1). apply nth_error_nth with (d := []) in E1. rewrite E1.
      exact (proj2 (colinv_step _ _ _ _ _ Hrow1 Hg)).
    - rewrite E. cbn [obind fst snd] in *. apply colinv_end in Hs. subst sh1.
      assert (sc1 = mapi (fun v a => map (raw v a) gs) al) as ->.
      { apply nth_error_ext. intro v. rewrite nth_mapi. destruct (nth_error al v) as [a|] eqn:Ha; cbn [option_map].
        - destruct (Hr _ _ Ha) as (row & E1 & Hrow1). apply colinv_end in Hrow1. congruence.
        - apply nth_error_None. apply nth_error_None in Ha. rewrite Hl. exact Ha. }
      unfold vector_log_io. rewrite log_col. cbn [obind].
      unfold dd_dim. rewrite (row_loop _ (fun v a => map (entry v a) gs)); [reflexivity|].
      intros v a s Ha Hls Hrow. rewrite (vget_nth _ _ _ Hrow). cbn [obind]. rewrite log_col. cbn [obind].
      apply vset_ok. eapply nth_lt, Hrow.
  Qed.

  Lemma dd_coherent dl : coherent (dd_vscorer (F:=F)) dl sh dd_okg dd_okv dd_cache dd_fast.
  Proof.
    split; cbn [group_t value_t shared_t DD c_init c_add c_rem vs_resize vs_update_all vs_add_group
                vs_update_group vs_remove_group vs_add_value vs_remove_value vs_score_group vs_score dd_vscorer].
    - unfold dd_okg, dd_init. cbn [dd_counts]. apply repeat_length.
    - intros g v g' Hg E. exact (proj1 (proj2 (bump_inv _ _ _ _ _ E Hg))).
    - intros g v g' Hg E. exact (proj1 (proj2 (bump_inv _ _ _ _ _ E Hg))).
    - intros t gs HW. apply dd_init_ok, HW.
    - intros gs HW. unfold dd_vs_add_group. cbn [dd_cache ddv_scores ddv_shift ddv_alpha_sum]. unfold dd_dim at 1.
      rewrite (row_loop _ (fun v a => map (entry v a) gs ++ [nof 0])).
      2:{ intros v a sc Ha Hl Hr. rewrite (vget_nth _ _ _ Hr). cbn [obind]. apply vset_ok. eapply nth_lt, Hr. }
      cbn [obind]. eexists. split; [reflexivity|]. unfold dd_vs_update_group, packed_add.
      cbn [ddv_alpha_sum ddv_scores ddv_shift dd_alpha_sum_get obind].
      rewrite <- (map_length (fun g => nlog (tot g)) gs) at 1. rewrite vset_last. cbn [obind]. unfold dd_dim at 1.
      rewrite (row_loop _ (fun v a => map (entry v a) (gs ++ [dd_init sh]))).
      2:{ intros v a sc Ha Hl Hr. rewrite (vget_nth _ _ _ Ha). cbn [obind].
          rewrite (cnt_get (dd_init sh) v a); [|unfold dd_okg, dd_init; apply repeat_length|exact Ha].
          cbn [obind]. unfold set2. rewrite (vget_nth _ _ _ Hr). cbn [obind].
          rewrite <- (map_length (entry v a) gs) at 1. rewrite vset_last. cbn [obind].
          rewrite vset_ok by (eapply nth_lt, Hr). rewrite map_app. reflexivity. }
      cbn [obind]. unfold dd_cache. rewrite map_app. reflexivity.
    - intros gs i gs' HW E. unfold dd_vs_remove_group. cbn [dd_cache ddv_scores ddv_shift ddv_alpha_sum].
      rewrite (packed_remove_map _ _ _ _ _ E). cbn [obind]. unfold dd_dim.
      rewrite (row_loop _ (fun v a => map (entry v a) gs')); [reflexivity|].
      intros v a sc Ha Hl Hr. rewrite (vget_nth _ _ _ Hr). cbn [obind].
      rewrite (packed_remove_map _ _ _ _ _ E). cbn [obind]. apply vset_ok. eapply nth_lt, Hr.
    - intros gs i g v g' HW Hg E. exact (dd_value_ok _ _ _ _ _ _ _ HW Hg E).
    - intros gs i g v g' HW Hg E. exact (dd_value_ok _ _ _ _ _ _ _ HW Hg E).
    - intros gs i g v HW Hv Hg. unfold dd_vs_score_group, zget.
      rewrite dassert_at_true by (apply Z.ltb_lt; unfold dd_okv in Hv; lia). cbn [obind dd_cache ddv_scores ddv_shift].
      destruct (Z.ltb_spec v 0); [unfold dd_okv in Hv; lia|].
      destruct (vget_some al (Z.to_nat v)) as (a & Ha & Ea); [unfold dd_okv, dd_dim in Hv; lia|].
      rewrite (vget_nth _ _ (map (entry (Z.to_nat v) a) gs)) by (rewrite nth_mapi, Ha; reflexivity). cbn [obind].
      do 2 (rewrite (vget_map _ _ _ _ Hg); cbn [obind]). unfold dd_fast.
      now rewrite (nth_error_nth _ _ (nof 0) Ha).
    - intros gs v accum HW Hv Hl. unfold dd_vs_score, zget.
      rewrite dassert_at_true by (apply Z.ltb_lt; unfold dd_okv in Hv; lia). cbn [obind dd_cache ddv_scores ddv_shift].
      destruct (Z.ltb_spec v 0); [unfold dd_okv in Hv; lia|].
      destruct (vget_some al (Z.to_nat v)) as (a & Ha & Ea); [unfold dd_okv, dd_dim in Hv; lia|].
      rewrite (vget_nth _ _ (map (entry (Z.to_nat v) a) gs)) by (rewrite nth_mapi, Ha; reflexivity). cbn [obind].
      unfold vector_add_subtract. apply accum_loop; [exact Hl|]. intros i x g Hx Hg.
      do 2 (rewrite (vget_map _ _ _ _ Hg); cbn [obind]). unfold dd_fast.
      now rewrite (nth_error_nth _ _ (nof 0) Ha).
  Qed.
End DDS.
