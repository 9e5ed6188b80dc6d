(** The caching value scorers of BB, GP, BNB and NICH are functions of the groups. *)
From Verif.spec Require Import SlaveSpec.
From Verif.model Require Import Base Packed Num VectorMath Component Slave SlaveRun BB GP BNB NICH.
From Verif.proof Require Import BaseProof VectorProof PackedProof LoopProof SlaveProof.

Section Inst.
  Context {F : Type} {N : Num F}.

  Definition any {A} (_ : A) : Prop := True.

  (** BB *)
  Definition bb_cache (sh : bb_shared F) (gs : list bb_group) : bb_vs F :=
    mk_bb_vs (map (fun g => fst (bb_scorer_init sh g)) gs) (map (fun g => snd (bb_scorer_init sh g)) gs).
  Lemma bb_coherent dl sh : coherent (bb_vscorer (F:=F)) dl sh any any (bb_cache sh) (bb_score_value sh).
  Proof.
    split; try (intros; exact I); cbn [group_t value_t shared_t BB].
    - intros t gs _. cbn [vs_resize vs_update_all bb_vscorer]. unfold bb_vs_resize.
      eexists. split; [reflexivity|]. unfold bb_vs_update_all. cbn [bb_hs bb_ts].
      set (h0 := vec_resize _ (vec_resize _ (bb_hs t) _) _). set (t0 := vec_resize _ (vec_resize _ (bb_ts t) _) _).
      set (fh (g : bb_group) := ndiv (nadd (bb_alpha sh) (nof (bb_heads g)))
             (nadd (nadd (bb_alpha sh) (nof (bb_heads g))) (nadd (bb_beta sh) (nof (bb_tails g))))).
      set (ft (g : bb_group) := ndiv (nadd (bb_beta sh) (nof (bb_tails g)))
             (nadd (nadd (bb_alpha sh) (nof (bb_heads g))) (nadd (bb_beta sh) (nof (bb_tails g))))).
      match goal with |- context [vfor 0 (length gs) ?b (h0, t0)] =>
        destruct (vfor_inv (fun k p => colinv gs fh k (fst p) /\ colinv gs ft k (snd p)) b (length gs) 0 (h0, t0))
          as ([h1 t1] & E & Hh & Ht) end.
      + split; apply colinv_0; apply vec_resize_length.
      + intros i [h u] Hi [Hh Hu]. cbn [fst snd] in *. destruct (vget_some gs i) as (g & Hg & Eg); [lia|].
        cbv beta; rewrite Eg. cbn [obind].
        destruct (colinv_step _ _ _ _ _ Hh Hg) as [E1 H1]. destruct (colinv_step _ _ _ _ _ Hu Hg) as [E2 H2].
        eexists (_, _). fold (fh g) (ft g). rewrite E1. cbn [obind]. rewrite E2. cbn [obind].
        split; [reflexivity|]. split; assumption.
      + rewrite E. cbn [obind fst snd] in *. apply colinv_end in Hh, Ht. subst h1 t1.
        unfold vector_log_io. rewrite log_col. cbn [obind]. rewrite log_col. reflexivity.
    - intros gs _. cbn [vs_add_group vs_update_group bb_vscorer]. unfold bb_vs_add_group, packed_add. cbn [bb_cache bb_hs bb_ts].
      eexists. split; [reflexivity|]. unfold bb_vs_update_group. cbn [bb_hs bb_ts].
      rewrite <- (map_length (fun g => fst (bb_scorer_init sh g)) gs) at 1. rewrite vset_last. cbn [obind].
      rewrite <- (map_length (fun g => snd (bb_scorer_init sh g)) gs) at 1. rewrite vset_last. cbn [obind].
      unfold bb_cache. rewrite !map_app. reflexivity.
    - intros gs i gs' _ E. cbn [vs_remove_group bb_vscorer]. unfold bb_vs_remove_group. cbn [bb_cache bb_hs bb_ts].
      rewrite !(packed_remove_map _ _ _ _ _ E). reflexivity.
    - intros gs i g v g' _ Hg _. cbn [vs_add_value bb_vscorer]. unfold bb_vs_value, bb_vs_update_group. cbn [bb_cache bb_hs bb_ts].
      apply nth_lt in Hg. rewrite (vset_map (fun g => fst (bb_scorer_init sh g)) gs i g' Hg),
        (vset_map (fun g => snd (bb_scorer_init sh g)) gs i g' Hg). reflexivity.
    - intros gs i g v g' _ Hg _. cbn [vs_remove_value bb_vscorer]. unfold bb_vs_value, bb_vs_update_group. cbn [bb_cache bb_hs bb_ts].
      apply nth_lt in Hg. rewrite (vset_map (fun g => fst (bb_scorer_init sh g)) gs i g' Hg),
        (vset_map (fun g => snd (bb_scorer_init sh g)) gs i g' Hg). reflexivity.
    - intros gs i g v _ _ Hg. cbn [vs_score_group bb_vscorer]. unfold bb_vs_score_group. cbn [bb_cache bb_hs bb_ts].
      destruct v; rewrite (vget_map _ _ _ _ Hg); reflexivity.
    - intros gs v accum _ _ Hl. cbn [vs_score bb_vscorer]. unfold bb_vs_score, vector_add. cbn [bb_cache bb_hs bb_ts].
      apply accum_loop; [exact Hl|]. intros i x g Hx Hg.
      destruct v; rewrite (vget_map _ _ _ _ Hg); reflexivity.
  Qed.

  (** GP *)
  Definition gp_cache (sh : gp_shared F) (gs : list (gp_group F)) : gp_vs F :=
    mk_gp_vs (map (fun g => gps_score (gp_scorer_init sh g)) gs)
             (map (fun g => gps_post_alpha (gp_scorer_init sh g)) gs)
             (map (fun g => gps_coeff (gp_scorer_init sh g)) gs).
  Lemma gp_coherent dl sh : coherent (gp_vscorer (F:=F)) dl sh any any (gp_cache sh) (gp_score_value sh).
  Proof.
    split; try (intros; exact I); cbn [group_t value_t shared_t GP].
    - intros t gs _. cbn [vs_resize vs_update_all gp_vscorer]. unfold gp_vs_resize.
      eexists. split; [reflexivity|]. unfold gp_vs_update_all.
      match goal with |- vfor 0 (length gs) ?b ?t0 = _ =>
        destruct (vfor_inv (fun k t => colinv gs (fun g => gps_score (gp_scorer_init sh g)) k (gpv_score t) /\
                     colinv gs (fun g => gps_post_alpha (gp_scorer_init sh g)) k (gpv_post_alpha t) /\
                     colinv gs (fun g => gps_coeff (gp_scorer_init sh g)) k (gpv_coeff t)) b (length gs) 0 t0)
          as ([a1 b1 c1] & E & Ha & Hb & Hc) end.
      + cbn [gpv_score gpv_post_alpha gpv_coeff]. split; [|split]; apply colinv_0; apply vec_resize_length.
      + intros i [a b c] Hi (Ha & Hb & Hc). cbn [gpv_score gpv_post_alpha gpv_coeff] in *.
        destruct (vget_some gs i) as (g & Hg & Eg); [lia|]. cbv beta; rewrite Eg. cbn [obind].
        unfold gp_vs_update_group. cbn [gpv_score gpv_post_alpha gpv_coeff].
        destruct (colinv_step _ _ _ _ _ Ha Hg) as [E1 H1]. destruct (colinv_step _ _ _ _ _ Hb Hg) as [E2 H2].
        destruct (colinv_step _ _ _ _ _ Hc Hg) as [E3 H3].
        rewrite E1. cbn [obind]. rewrite E2. cbn [obind]. rewrite E3. cbn [obind].
        eexists. split; [reflexivity|]. cbn [gpv_score gpv_post_alpha gpv_coeff]. split; [|split]; assumption.
      + rewrite E. cbn [gpv_score gpv_post_alpha gpv_coeff] in *. apply colinv_end in Ha, Hb, Hc. subst. reflexivity.
    - intros gs _. cbn [vs_add_group vs_update_group gp_vscorer]. unfold gp_vs_add_group, packed_add.
      cbn [gp_cache gpv_score gpv_post_alpha gpv_coeff].
      eexists. split; [reflexivity|]. unfold gp_vs_update_group. cbn [gpv_score gpv_post_alpha gpv_coeff].
      rewrite <- (map_length (fun g => gps_score (gp_scorer_init sh g)) gs) at 1. rewrite vset_last. cbn [obind].
      rewrite <- (map_length (fun g => gps_post_alpha (gp_scorer_init sh g)) gs) at 1. rewrite vset_last. cbn [obind].
      rewrite <- (map_length (fun g => gps_coeff (gp_scorer_init sh g)) gs) at 1. rewrite vset_last. cbn [obind].
      unfold gp_cache. rewrite !map_app. reflexivity.
    - intros gs i gs' _ E. cbn [vs_remove_group gp_vscorer]. unfold gp_vs_remove_group.
      cbn [gp_cache gpv_score gpv_post_alpha gpv_coeff].
      rewrite !(packed_remove_map _ _ _ _ _ E). reflexivity.
    - intros gs i g v g' _ Hg _. cbn [vs_add_value gp_vscorer]. unfold gp_vs_value, gp_vs_update_group.
      cbn [gp_cache gpv_score gpv_post_alpha gpv_coeff].
      apply nth_lt in Hg. rewrite (vset_map (fun g => gps_score (gp_scorer_init sh g)) gs i g' Hg),
        (vset_map (fun g => gps_post_alpha (gp_scorer_init sh g)) gs i g' Hg),
        (vset_map (fun g => gps_coeff (gp_scorer_init sh g)) gs i g' Hg). reflexivity.
    - intros gs i g v g' _ Hg _. cbn [vs_remove_value gp_vscorer]. unfold gp_vs_value, gp_vs_update_group.
      cbn [gp_cache gpv_score gpv_post_alpha gpv_coeff].
      apply nth_lt in Hg. rewrite (vset_map (fun g => gps_score (gp_scorer_init sh g)) gs i g' Hg),
        (vset_map (fun g => gps_post_alpha (gp_scorer_init sh g)) gs i g' Hg),
        (vset_map (fun g => gps_coeff (gp_scorer_init sh g)) gs i g' Hg). reflexivity.
    - intros gs i g v _ _ Hg. cbn [vs_score_group gp_vscorer]. unfold gp_vs_score_group.
      cbn [gp_cache gpv_score gpv_post_alpha gpv_coeff].
      do 3 (rewrite (vget_map _ _ _ _ Hg); cbn [obind]). reflexivity.
    - intros gs v accum _ _ Hl. cbn [vs_score gp_vscorer]. unfold gp_vs_score.
      cbn [gp_cache gpv_score gpv_post_alpha gpv_coeff]. rewrite Hl.
      rewrite (out_loop gs (fun g => nlgamma (nadd (gps_post_alpha (gp_scorer_init sh g)) (nof v)))).
      2: apply repeat_length.
      2:{ intros i o g Hg. rewrite (vget_map _ _ _ _ Hg). reflexivity. }
      cbn [obind]. rewrite <- Hl at 1. apply accum_loop; [exact Hl|].
      intros i x g Hx Hg. do 3 (rewrite (vget_map _ _ _ _ Hg); cbn [obind]). reflexivity.
  Qed.

  (** BNB; the cached formula adds alpha and beta in the other order *)
  Definition bnb_cache (sh : bnb_shared F) (gs : list bnb_group) : bnb_vs F :=
    mk_bnb_vs (map (fun g => bns_score (bnb_scorer_init sh g)) gs)
              (map (fun g => bns_post_beta (bnb_scorer_init sh g)) gs)
              (map (fun g => bns_alpha (bnb_scorer_init sh g)) gs).
  Definition bnb_fast (sh : bnb_shared F) (g : bnb_group) (v : Z) : F :=
    let s := bnb_scorer_init sh g in
    let beta := nadd (bns_post_beta s) (nof v) in
    nsub (nadd (bns_score s) (nlgamma beta)) (nlgamma (nadd beta (bns_alpha s))).
  Lemma bnb_coherent dl sh : coherent (bnb_vscorer (F:=F)) dl sh any any (bnb_cache sh) (bnb_fast sh).
  Proof.
    split; try (intros; exact I); cbn [group_t value_t shared_t BNB].
    - intros t gs _. cbn [vs_resize vs_update_all bnb_vscorer]. unfold bnb_vs_resize.
      eexists. split; [reflexivity|]. unfold bnb_vs_update_all.
      match goal with |- vfor 0 (length gs) ?b ?t0 = _ =>
        destruct (vfor_inv (fun k t => colinv gs (fun g => bns_score (bnb_scorer_init sh g)) k (bnv_score t) /\
                     colinv gs (fun g => bns_post_beta (bnb_scorer_init sh g)) k (bnv_post_beta t) /\
                     colinv gs (fun g => bns_alpha (bnb_scorer_init sh g)) k (bnv_alpha t)) b (length gs) 0 t0)
          as ([a1 b1 c1] & E & Ha & Hb & Hc) end.
      + cbn [bnv_score bnv_post_beta bnv_alpha]. split; [|split]; apply colinv_0; apply vec_resize_length.
      + intros i [a b c] Hi (Ha & Hb & Hc). cbn [bnv_score bnv_post_beta bnv_alpha] in *.
        destruct (vget_some gs i) as (g & Hg & Eg); [lia|]. cbv beta; rewrite Eg. cbn [obind].
        unfold bnb_vs_update_group. cbn [bnv_score bnv_post_beta bnv_alpha].
        destruct (colinv_step _ _ _ _ _ Ha Hg) as [E1 H1]. destruct (colinv_step _ _ _ _ _ Hb Hg) as [E2 H2].
        destruct (colinv_step _ _ _ _ _ Hc Hg) as [E3 H3].
        rewrite E1. cbn [obind]. rewrite E2. cbn [obind]. rewrite E3. cbn [obind].
        eexists. split; [reflexivity|]. cbn [bnv_score bnv_post_beta bnv_alpha]. split; [|split]; assumption.
      + rewrite E. cbn [bnv_score bnv_post_beta bnv_alpha] in *. apply colinv_end in Ha, Hb, Hc. subst. reflexivity.
    - intros gs _. cbn [vs_add_group vs_update_group bnb_vscorer]. unfold bnb_vs_add_group, packed_add.
      cbn [bnb_cache bnv_score bnv_post_beta bnv_alpha].
      eexists. split; [reflexivity|]. unfold bnb_vs_update_group. cbn [bnv_score bnv_post_beta bnv_alpha].
      rewrite <- (map_length (fun g => bns_score (bnb_scorer_init sh g)) gs) at 1. rewrite vset_last. cbn [obind].
      rewrite <- (map_length (fun g => bns_post_beta (bnb_scorer_init sh g)) gs) at 1. rewrite vset_last. cbn [obind].
      rewrite <- (map_length (fun g => bns_alpha (bnb_scorer_init sh g)) gs) at 1. rewrite vset_last. cbn [obind].
      unfold bnb_cache. rewrite !map_app. reflexivity.
    - intros gs i gs' _ E. cbn [vs_remove_group bnb_vscorer]. unfold bnb_vs_remove_group.
      cbn [bnb_cache bnv_score bnv_post_beta bnv_alpha].
      rewrite !(packed_remove_map _ _ _ _ _ E). reflexivity.
    - intros gs i g v g' _ Hg _. cbn [vs_add_value bnb_vscorer]. unfold bnb_vs_value, bnb_vs_update_group.
      cbn [bnb_cache bnv_score bnv_post_beta bnv_alpha].
      apply nth_lt in Hg. rewrite (vset_map (fun g => bns_score (bnb_scorer_init sh g)) gs i g' Hg),
        (vset_map (fun g => bns_post_beta (bnb_scorer_init sh g)) gs i g' Hg),
        (vset_map (fun g => bns_alpha (bnb_scorer_init sh g)) gs i g' Hg). reflexivity.
    - intros gs i g v g' _ Hg _. cbn [vs_remove_value bnb_vscorer]. unfold bnb_vs_value, bnb_vs_update_group.
      cbn [bnb_cache bnv_score bnv_post_beta bnv_alpha].
      apply nth_lt in Hg. rewrite (vset_map (fun g => bns_score (bnb_scorer_init sh g)) gs i g' Hg),
        (vset_map (fun g => bns_post_beta (bnb_scorer_init sh g)) gs i g' Hg),
        (vset_map (fun g => bns_alpha (bnb_scorer_init sh g)) gs i g' Hg). reflexivity.
    - intros gs i g v _ _ Hg. cbn [vs_score_group bnb_vscorer]. unfold bnb_vs_score_group.
      cbn [bnb_cache bnv_score bnv_post_beta bnv_alpha].
      do 3 (rewrite (vget_map _ _ _ _ Hg); cbn [obind]). reflexivity.
    - intros gs v accum _ _ Hl. cbn [vs_score bnb_vscorer]. unfold bnb_vs_score.
      cbn [bnb_cache bnv_score bnv_post_beta bnv_alpha]. apply accum_loop; [exact Hl|].
      intros i x g Hx Hg. do 3 (rewrite (vget_map _ _ _ _ Hg); cbn [obind]). reflexivity.
  Qed.

  (** NICH *)
  Definition nich_cache (sh : nich_shared F) (gs : list (nich_group F)) : nich_vs F :=
    mk_nich_vs (map (fun g => nis_score (nich_scorer_init sh g)) gs)
               (map (fun g => nis_coeff (nich_scorer_init sh g)) gs)
               (map (fun g => nis_prec (nich_scorer_init sh g)) gs)
               (map (fun g => nis_mean (nich_scorer_init sh g)) gs).
  Lemma nich_coherent dl sh : coherent (nich_vscorer (F:=F)) dl sh any any (nich_cache sh) (nich_score_value sh).
  Proof.
    split; try (intros; exact I); cbn [group_t value_t shared_t NICH].
    - intros t gs _. cbn [vs_resize vs_update_all nich_vscorer]. unfold nich_vs_resize.
      eexists. split; [reflexivity|]. unfold nich_vs_update_all.
      match goal with |- vfor 0 (length gs) ?b ?t0 = _ =>
        destruct (vfor_inv (fun k t => colinv gs (fun g => nis_score (nich_scorer_init sh g)) k (niv_score t) /\
                     colinv gs (fun g => nis_coeff (nich_scorer_init sh g)) k (niv_coeff t) /\
                     colinv gs (fun g => nis_prec (nich_scorer_init sh g)) k (niv_prec t) /\
                     colinv gs (fun g => nis_mean (nich_scorer_init sh g)) k (niv_mean t)) b (length gs) 0 t0)
          as ([a1 b1 c1 d1] & E & Ha & Hb & Hc & Hd) end.
      + cbn [niv_score niv_coeff niv_prec niv_mean]. split; [|split; [|split]]; apply colinv_0; apply vec_resize_length.
      + intros i [a b c d] Hi (Ha & Hb & Hc & Hd). cbn [niv_score niv_coeff niv_prec niv_mean] in *.
        destruct (vget_some gs i) as (g & Hg & Eg); [lia|]. cbv beta; rewrite Eg. cbn [obind].
        unfold nich_vs_update_group. cbn [niv_score niv_coeff niv_prec niv_mean].
        destruct (colinv_step _ _ _ _ _ Ha Hg) as [E1 H1]. destruct (colinv_step _ _ _ _ _ Hb Hg) as [E2 H2].
        destruct (colinv_step _ _ _ _ _ Hc Hg) as [E3 H3]. destruct (colinv_step _ _ _ _ _ Hd Hg) as [E4 H4].
        rewrite E1. cbn [obind]. rewrite E2. cbn [obind]. rewrite E3. cbn [obind]. rewrite E4. cbn [obind].
        eexists. split; [reflexivity|]. cbn [niv_score niv_coeff niv_prec niv_mean]. split; [|split; [|split]]; assumption.
      + rewrite E. cbn [niv_score niv_coeff niv_prec niv_mean] in *. apply colinv_end in Ha, Hb, Hc, Hd. subst. reflexivity.
    - intros gs _. cbn [vs_add_group vs_update_group nich_vscorer]. unfold nich_vs_add_group, packed_add.
      cbn [nich_cache niv_score niv_coeff niv_prec niv_mean].
      eexists. split; [reflexivity|]. unfold nich_vs_update_group. cbn [niv_score niv_coeff niv_prec niv_mean].
      rewrite <- (map_length (fun g => nis_score (nich_scorer_init sh g)) gs) at 1. rewrite vset_last. cbn [obind].
      rewrite <- (map_length (fun g => nis_coeff (nich_scorer_init sh g)) gs) at 1. rewrite vset_last. cbn [obind].
      rewrite <- (map_length (fun g => nis_prec (nich_scorer_init sh g)) gs) at 1. rewrite vset_last. cbn [obind].
      rewrite <- (map_length (fun g => nis_mean (nich_scorer_init sh g)) gs) at 1. rewrite vset_last. cbn [obind].
      unfold nich_cache. rewrite !map_app. reflexivity.
    - intros gs i gs' _ E. cbn [vs_remove_group nich_vscorer]. unfold nich_vs_remove_group.
      cbn [nich_cache niv_score niv_coeff niv_prec niv_mean].
      rewrite !(packed_remove_map _ _ _ _ _ E). reflexivity.
    - intros gs i g v g' _ Hg _. cbn [vs_add_value nich_vscorer]. unfold nich_vs_value, nich_vs_update_group.
      cbn [nich_cache niv_score niv_coeff niv_prec niv_mean].
      apply nth_lt in Hg. rewrite (vset_map (fun g => nis_score (nich_scorer_init sh g)) gs i g' Hg),
        (vset_map (fun g => nis_coeff (nich_scorer_init sh g)) gs i g' Hg),
        (vset_map (fun g => nis_prec (nich_scorer_init sh g)) gs i g' Hg),
        (vset_map (fun g => nis_mean (nich_scorer_init sh g)) gs i g' Hg). reflexivity.
    - intros gs i g v g' _ Hg _. cbn [vs_remove_value nich_vscorer]. unfold nich_vs_value, nich_vs_update_group.
      cbn [nich_cache niv_score niv_coeff niv_prec niv_mean].
      apply nth_lt in Hg. rewrite (vset_map (fun g => nis_score (nich_scorer_init sh g)) gs i g' Hg),
        (vset_map (fun g => nis_coeff (nich_scorer_init sh g)) gs i g' Hg),
        (vset_map (fun g => nis_prec (nich_scorer_init sh g)) gs i g' Hg),
        (vset_map (fun g => nis_mean (nich_scorer_init sh g)) gs i g' Hg). reflexivity.
    - intros gs i g v _ _ Hg. cbn [vs_score_group nich_vscorer]. unfold nich_vs_score_group.
      cbn [nich_cache niv_score niv_coeff niv_prec niv_mean].
      do 4 (rewrite (vget_map _ _ _ _ Hg); cbn [obind]). reflexivity.
    - intros gs v accum _ _ Hl. cbn [vs_score nich_vscorer]. unfold nich_vs_score.
      cbn [nich_cache niv_score niv_coeff niv_prec niv_mean]. rewrite Hl.
      rewrite (out_loop gs (fun g => nadd (nlit 1 1) (nmul (nis_prec (nich_scorer_init sh g))
                 (sqr (nsub v (nis_mean (nich_scorer_init sh g))))))).
      2: apply repeat_length.
      2:{ intros i o g Hg. do 2 (rewrite (vget_map _ _ _ _ Hg); cbn [obind]). reflexivity. }
      cbn [obind]. unfold vector_log_io. rewrite log_col. cbn [obind].
      rewrite <- Hl at 1. apply accum_loop; [exact Hl|].
      intros i x g Hx Hg. do 3 (rewrite (vget_map _ _ _ _ Hg); cbn [obind]). reflexivity.
  Qed.
End Inst.
