(** C95: objects survive the trip through bytes and files.  protobuf_dump into a message object that may
    hold anything already, SerializeToString, ParseFromString, protobuf_load: the object is back, bit for
    bit.  [bits] and [unbits] are how a float is kept in a message (C95_floats: IEEE single precision has
    them); every theorem is for all arithmetics [F] that can be so kept. *)
From Coq Require Import ZArith Lia String List Permutation.
Import ListNotations.
From Flocq Require Import IEEE754.Bits IEEE754.BinarySingleNaN.
From Verif.model Require Import Base Wire SchemaCode Schema Num NumTerm Component BB GP BNB NICH DD Sparse DPD NIW PitmanYor Proto ProtoWire Stream.
From Verif.spec Require Import WireSpec GroupSpec CrossSpec StreamSpec.
From Verif.proof Require Import BaseProof GroupProof DDProof ProtoProof SchemaProof ProtoWireProof StreamProof.
From stdpp Require Import gmap.
From Verif.proof Require Import MapSum DPDProof DPDShared DPDProto.
Local Open Scope Z_scope.

(** Floats: IEEE single precision, not-a-numbers with their payloads included. *)
Theorem C95_floats : float_bits bits_of_b32 b32_of_bits.
Proof.
  split; intro x; [exact (binary_float_of_bits_of_binary_float 23 8 eq_refl eq_refl eq_refl x)|].
  exact (bits_of_binary_float_range 23 8 eq_refl eq_refl x).
Qed.
Print Assumptions C95_floats.

(** The parameters. *)
Theorem C95_shareds : forall (F : Type) (bits : F -> Z) unbits d m0, float_bits bits unbits ->
  (is_message d "BetaBernoulli.Shared" m0 -> forall sh, crosses BetaBernoulli_Shared_code d (bb_shared_put bits) (bb_shared_get unbits)
     (fun x => Ok (bb_shared_load x)) (bb_shared_dump sh) m0 sh) /\
  (is_message d "GammaPoisson.Shared" m0 -> forall sh, crosses GammaPoisson_Shared_code d (gp_shared_put bits) (gp_shared_get unbits)
     (fun x => Ok (gp_shared_load x)) (gp_shared_dump sh) m0 sh) /\
  (is_message d "BetaNegativeBinomial.Shared" m0 -> forall sh, 0 <= bnb_r sh < 4294967296 ->
     crosses BetaNegativeBinomial_Shared_code d (bnb_shared_put bits) (bnb_shared_get unbits)
     (fun x => Ok (bnb_shared_load x)) (bnb_shared_dump sh) m0 sh) /\
  (is_message d "NormalInverseChiSq.Shared" m0 -> forall sh, crosses NormalInverseChiSq_Shared_code d (nich_shared_put bits) (nich_shared_get unbits)
     (fun x => Ok (nich_shared_load x)) (nich_shared_dump sh) m0 sh) /\
  (is_message d "DirichletDiscrete.Shared" m0 -> forall max_dim sh, (dd_dim sh <= max_dim)%nat ->
     crosses DirichletDiscrete_Shared_code d (dd_shared_put bits) (dd_shared_get unbits)
     (dd_shared_load max_dim) (dd_shared_dump sh) m0 sh) /\
  (is_message d "Clustering.PitmanYor" m0 -> forall c, crosses Clustering_PitmanYor_code d (py_put bits) (py_get unbits)
     (fun x => Ok (py_load x)) (py_dump c) m0 c) /\
  (is_message d "Clustering.LowEntropy" m0 -> forall n, -2147483648 <= n <= 2147483647 ->
     crosses Clustering_LowEntropy_code d le_put le_get (fun x => Ok (le_load x)) (le_dump n) m0 n).
Proof.
  intros F bits unbits d m0 [ub br]. repeat split; intros M; (eapply is_message_of in M; [|named]).
  - intros sh. eapply (placed_crosses "BetaBernoulli.Shared"); [named|named|apply bb_shared_placed; eassumption|now destruct sh].
  - intros sh. eapply (placed_crosses "GammaPoisson.Shared"); [named|named|apply gp_shared_placed; eassumption|now destruct sh].
  - intros [a b r] Hr. eapply (placed_crosses "BetaNegativeBinomial.Shared"); [named|named|apply bnb_shared_placed; try eassumption; apply as_size_range|].
    unfold bnb_shared_load, bnb_shared_dump. cbn in *. now rewrite uint_trip.
  - intros sh. eapply (placed_crosses "NormalInverseChiSq.Shared"); [named|named|apply nich_shared_placed; eassumption|now destruct sh].
  - intros max_dim sh Hd. eapply (placed_crosses "DirichletDiscrete.Shared"); [named|named|apply dd_shared_placed; eassumption|now apply dd_shared_trip].
  - intros c. eapply (placed_crosses "Clustering.PitmanYor"); [named|named|apply py_placed; eassumption|now destruct c].
  - intros n Hn. eapply (placed_crosses "Clustering.LowEntropy"); [named|named|apply le_placed; try eassumption; apply as_size_range|].
    f_equal. now apply int_trip.
Qed.
Print Assumptions C95_shareds.

(** Groups, after any history of add, remove, add_repeated and merge calls, data debt included. *)
Theorem C95_bb_group : forall (F : Type) dl (sh : bb_shared F) ops g d m0,
  grun (BB F) dl sh (c_init (BB F) sh) ops = Ok g -> is_message d "BetaBernoulli.Group" m0 ->
  crosses BetaBernoulli_Group_code d bb_put bb_get (fun x => Ok (bb_load x)) (bb_dump g) m0 g.
Proof.
  intros F dl sh ops g d m0 H M. eapply is_message_of in M; [|named].
  eapply (placed_crosses "BetaBernoulli.Group"); [named|named|apply bb_placed; try eassumption; apply as_size_range|].
  f_equal. apply bb_trip. exact (bb_group_range dl sh ops g H).
Qed.
Print Assumptions C95_bb_group.
Theorem C95_gp_group : forall (F : Type) (N : Num F) (bits : F -> Z) unbits dl (sh : gp_shared F) ops g d m0, float_bits bits unbits ->
  grun (GP F) dl sh (c_init (GP F) sh) ops = Ok g -> is_message d "GammaPoisson.Group" m0 ->
  crosses GammaPoisson_Group_code d (gp_put bits) (gp_get unbits) (fun x => Ok (gp_load x)) (gp_dump g) m0 g.
Proof.
  intros F N bits unbits dl sh ops g d m0 [ub br] H M. eapply is_message_of in M; [|named].
  eapply (placed_crosses "GammaPoisson.Group"); [named|named|apply gp_placed; try eassumption; apply as_size_range|].
  f_equal. apply gp_trip. exact (gp_group_range dl sh ops g H).
Qed.
Print Assumptions C95_gp_group.
Theorem C95_bnb_group : forall (F : Type) dl (sh : bnb_shared F) ops g d m0,
  grun (BNB F) dl sh (c_init (BNB F) sh) ops = Ok g -> is_message d "BetaNegativeBinomial.Group" m0 ->
  crosses BetaNegativeBinomial_Group_code d bnb_put bnb_get (fun x => Ok (bnb_load x)) (bnb_dump g) m0 g.
Proof.
  intros F dl sh ops g d m0 H M. eapply is_message_of in M; [|named].
  eapply (placed_crosses "BetaNegativeBinomial.Group"); [named|named|apply bnb_placed; try eassumption; apply as_size_range|].
  f_equal. apply bnb_trip. exact (bnb_group_range dl sh ops g H).
Qed.
Print Assumptions C95_bnb_group.
Theorem C95_nich_group : forall (F : Type) (N : Num F) (bits : F -> Z) unbits dl (sh : nich_shared F) ops g d m0, float_bits bits unbits ->
  grun (NICH F) dl sh (c_init (NICH F) sh) ops = Ok g -> is_message d "NormalInverseChiSq.Group" m0 ->
  crosses NormalInverseChiSq_Group_code d (nich_put bits) (nich_get unbits) (fun x => Ok (nich_load x)) (nich_dump g) m0 g.
Proof.
  intros F N bits unbits dl sh ops g d m0 [ub br] H M. eapply is_message_of in M; [|named].
  eapply (placed_crosses "NormalInverseChiSq.Group"); [named|named|apply nich_placed; try eassumption; apply as_size_range|].
  f_equal. apply nich_trip. exact (nich_group_range dl sh ops g H).
Qed.
Print Assumptions C95_nich_group.

(** Dirichlet-discrete: histories of values in range; merges are C41_dd_merge_repaired_by_round_trip. *)
Theorem C95_dd_group : forall (F : Type) dl (sh : dd_shared F) max_dim ops l g d m0,
  (dd_dim sh <= max_dim)%nat ->
  ghistory (dd_op (dd_dim sh)) (in_dim (dd_dim sh)) [] ops l ->
  grun (DD F) dl sh (c_init (DD F) sh) ops = Ok g -> is_message d "DirichletDiscrete.Group" m0 ->
  crosses DirichletDiscrete_Group_code d dd_put dd_get (dd_load max_dim) (dd_dump g) m0 g.
Proof.
  intros F dl sh max_dim ops l g d m0 Hd H E M. eapply is_message_of in M; [|named].
  eapply (placed_crosses "DirichletDiscrete.Group"); [named|named|apply dd_placed; try eassumption|].
  - unfold dd_dump. apply List.Forall_forall. intros x Hx. apply in_map_iff in Hx as (z & <- & _). apply as_size_range.
  - rewrite (dd_history dl sh ops l H) in E. injection E as <-.
    apply dd_load_tally; [exact Hd|]. eapply ghistory_fits; [|exact H]. split; [unfold short; cbn; lia|constructor].
Qed.
Print Assumptions C95_dd_group.

(** Dirichlet-process-discrete: histories of values that the shared knows; values are uint32_t. *)
Theorem C95_dpd_group : forall (F : Type) dl (sh : dpd_shared F) ops l g order old d m0,
  let known v := v <> OTHER /\ dp_betas sh !! v <> None in
  (forall v, dp_betas sh !! v <> None -> 0 <= v < 4294967296) ->
  ghistory (known_op known) (drawn_from known) [] ops l ->
  grun (DPD F) dl sh (c_init (DPD F) sh) ops = Ok g ->
  Permutation order (map_to_list (cmap g)) -> is_message d "DirichletProcessDiscrete.Group" m0 ->
  crosses DirichletProcessDiscrete_Group_code d dpd_put dpd_get (dpd_load dl old) (dpd_dump order) m0 g.
Proof.
  intros F dl sh ops l g order old d m0 known Hv H E P M. eapply is_message_of in M; [|named].
  rewrite (dpd_history dl sh ops l H) in E. injection E as <-.
  assert (D : drawn_from known l) by (apply (ghistory_fits _ _ _ _ _ (drawn_nil known) H)).
  eapply (placed_crosses "DirichletProcessDiscrete.Group"); [named|named|apply dpd_placed; try eassumption|].
  - cbn [dpd_dump pm_keys]. apply List.Forall_forall. intros k Hk. apply in_map_iff in Hk as ([k' n] & <- & Hk). cbn [fst].
    apply (Permutation_in _ P) in Hk. apply elem_of_list_In, elem_of_map_to_list in Hk. cbn [dpd_stat cmap] in Hk.
    apply Hv. destruct D as [_ D]. rewrite List.Forall_forall in D. apply (D k').
    rewrite dmap_lookup in Hk. destruct (in_dec Z.eq_dec k' l) as [I|I]; [exact I|].
    exfalso. assert (zcount l k' = 0) as Z0; [|now rewrite Z0 in Hk].
    clear -I. induction l as [|a l IH]; [reflexivity|]. rewrite zcount_cons, IH by (intro; apply I; now right).
    destruct (Z.eqb_spec k' a); [|reflexivity]. exfalso. apply I. now left.
  - cbn [dpd_dump pm_values]. apply List.Forall_forall. intros x Hx. apply in_map_iff in Hx as (z & <- & _). apply as_size_range.
  - cbn [dpd_dump pm_keys pm_values]. now rewrite !map_length.
  - apply dpd_trip; [apply D|exact P].
Qed.
Print Assumptions C95_dpd_group.

(** The shared of Dirichlet-process-discrete: the load works beta0 out again (C34), so what crosses is the message
    itself; the other side loads exactly what loading the message here would give. *)
Theorem C95_dpd_shared : forall (F : Type) (N : Num F) (bits : F -> Z) unbits dl (sh : dpd_shared F) order sh' d m0, float_bits bits unbits ->
  Forall (fun kv => 0 <= fst kv < 4294967296) order ->
  dps_load dl (dps_dump sh order) = Ok sh' -> is_message d "DirichletProcessDiscrete.Shared" m0 ->
  crosses DirichletProcessDiscrete_Shared_code d (dps_put bits) (dps_get unbits) (dps_load dl) (dps_dump sh order) m0 sh'.
Proof.
  intros F N bits unbits dl sh order sh' d m0 [ub br] H L M. eapply is_message_of in M; [|named].
  eapply (placed_crosses "DirichletProcessDiscrete.Shared"); [named|named|apply dps_placed; try eassumption|exact L];
    cbn [dps_dump dm_values dm_counts dm_betas]; rewrite ?map_length; try reflexivity.
  - apply List.Forall_forall. intros k Hk. apply in_map_iff in Hk as (kv & <- & Hk). rewrite List.Forall_forall in H. exact (H kv Hk).
  - apply List.Forall_forall. intros x Hx. apply in_map_iff in Hx as (z & <- & _). apply as_size_range.
Qed.
Print Assumptions C95_dpd_shared.

(** Normal-inverse-Wishart groups of at least one dimension, after any history, in any arithmetic; debug level 3
    also tests symmetry (C41_niw_group_round_trip). *)
Theorem C95_niw_group : forall (F : Set) (N : Num F) (bits : F -> Z) unbits dl dl' (sh : niw_shared F) ops g d m0, float_bits bits unbits ->
  (0 < niw_dim sh)%nat -> grun (NIW F) dl sh (c_init (NIW F) sh) ops = Ok g -> (dl' < 3)%nat ->
  is_message d "NormalInverseWishart.Group" m0 ->
  crosses NormalInverseWishart_Group_code d (niw_put bits) (niw_get unbits) (niw_load dl') (niw_dump g) m0 g.
Proof.
  intros F N bits unbits dl dl' sh ops g d m0 [ub br] Hp H Hl M. eapply is_message_of in M; [|named].
  pose proof (niw_group_shape dl sh ops g H) as S.
  eapply (placed_crosses "NormalInverseWishart.Group"); [named|named|apply niw_placed; try eassumption|].
  - cbn [niw_dump wm_count]. destruct S as (S & _). unfold i32_min, i32_max in S. lia.
  - exact (niw_load_shape dl' _ g Hl Hp S).
Qed.
Print Assumptions C95_niw_group.
(** C41 for these groups in every arithmetic, below the debug level of the positivity check. *)
Theorem C41_niw_any_arithmetic : forall (F : Set) (N : Num F) dl dl' (sh : niw_shared F) ops g,
  (0 < niw_dim sh)%nat -> grun (NIW F) dl sh (c_init (NIW F) sh) ops = Ok g -> (dl' < 3)%nat ->
  niw_load dl' (niw_dump g) = Ok g.
Proof. intros F N dl dl' sh ops g Hp H Hl. exact (niw_load_shape dl' _ g Hl Hp (niw_group_shape dl sh ops g H)). Qed.
Print Assumptions C41_niw_any_arithmetic.
Theorem C95_niw_shared : forall (F : Set) (N : Num F) (bits : F -> Z) unbits ldlt dl (sh sh' : niw_shared F) d m0, float_bits bits unbits ->
  niw_shared_load ldlt dl (niw_shared_dump sh) = Ok sh' -> is_message d "NormalInverseWishart.Shared" m0 ->
  crosses NormalInverseWishart_Shared_code d (niw_shared_put bits) (niw_shared_get unbits) (niw_shared_load ldlt dl) (niw_shared_dump sh) m0 sh'
  /\ niw_shared_dump sh' = niw_shared_dump sh.
Proof.
  intros F N bits unbits ldlt dl sh sh' d m0 [ub br] L M. eapply is_message_of in M; [|named]. split.
  - eapply (placed_crosses "NormalInverseWishart.Shared"); [named|named|apply niw_shared_placed; eassumption|exact L].
  - destruct (niw_shared_load_any ldlt dl (niw_shared_dump sh)) as [E|(s & E & D)]; congruence.
Qed.
Print Assumptions C95_niw_shared.

(** Bytes from anywhere - cut, damaged, made up - never lead a load of these into undefined behaviour: they give an
    object or are refused. *)
Theorem C95_any_bytes : forall (F : Set) (N : Num F) (unbits : Z -> F) ldlt dl max_dim room d l, Forall (fun x => 0 <= x < 256) l ->
  from_bytes room d BetaBernoulli_Shared_code (bb_shared_get unbits) (fun x => Ok (bb_shared_load x)) l <> UB /\
  from_bytes room d BetaBernoulli_Group_code bb_get (fun x => Ok (bb_load x)) l <> UB /\
  from_bytes room d GammaPoisson_Shared_code (gp_shared_get unbits) (fun x => Ok (gp_shared_load x)) l <> UB /\
  from_bytes room d GammaPoisson_Group_code (gp_get unbits) (fun x => Ok (gp_load x)) l <> UB /\
  from_bytes room d BetaNegativeBinomial_Shared_code (bnb_shared_get unbits) (fun x => Ok (bnb_shared_load x)) l <> UB /\
  from_bytes room d BetaNegativeBinomial_Group_code bnb_get (fun x => Ok (bnb_load x)) l <> UB /\
  from_bytes room d NormalInverseChiSq_Shared_code (nich_shared_get unbits) (fun x => Ok (nich_shared_load x)) l <> UB /\
  from_bytes room d NormalInverseChiSq_Group_code (nich_get unbits) (fun x => Ok (nich_load x)) l <> UB /\
  from_bytes room d DirichletDiscrete_Shared_code (dd_shared_get unbits) (dd_shared_load max_dim) l <> UB /\
  from_bytes room d NormalInverseWishart_Shared_code (niw_shared_get unbits) (niw_shared_load ldlt dl) l <> UB /\
  from_bytes room d NormalInverseWishart_Group_code (niw_get unbits) (niw_load dl) l <> UB /\
  from_bytes room d Clustering_PitmanYor_code (py_get unbits) (fun x => Ok (py_load x)) l <> UB /\
  from_bytes room d Clustering_LowEntropy_code le_get (fun x => Ok (le_load x)) l <> UB.
Proof. exact any_bytes. Qed.
Print Assumptions C95_any_bytes.

(** For DirichletDiscrete.Group, whose load adds up the counts, it is false: two counts that each fit an int
    overflow. *)
Theorem C95_any_bytes_refuted : exists l, Forall (fun x => 0 <= x < 256) l /\
  from_bytes (fun _ => 0%nat) 64 DirichletDiscrete_Group_code dd_get (dd_load 256) l = UB.
Proof.
  exists [8; 255; 255; 255; 255; 7; 8; 1]. split; [repeat constructor; lia|]. vm_compute. reflexivity.
Qed.
Print Assumptions C95_any_bytes_refuted.

(** Files: messages of one type, each below 2 GB, written one after the other with their lengths (io/stream.py), are
    what a loop over the file sees, message by message. *)
Theorem C95_file : forall name c sch d ms,
  In (name, c) schema_pb -> In (name, sch) schema_proto ->
  Forall (fun m => message_of d sch m /\ complete sch m /\ exists l, records_bytes (message_records sch m) l /\ Z.of_nat (length l) < 2 ^ 31) ms ->
  exists ls f, Forall2 (fun m l => serialize_to_string c m = Ok l) ms ls
    /\ protobuf_stream_dump ls = Ok f /\ framed ls f /\ drains protobuf_stream_read f ls Stopped
    /\ Forall2 (fun l m => forall room, parse room d c l = Ok (Some m)) ls ms.
Proof. exact file_trip. Qed.
Print Assumptions C95_file.

(** Cases.  The bit patterns themselves, taken as the floats: *)
Example C95_float_patterns : float_bits (F:={z : Z | 0 <=? z = true /\ z <? 2 ^ 32 = true}) (fun x => proj1_sig x)
  (fun z => match decide (0 <=? z = true /\ z <? 2 ^ 32 = true) with left H => exist _ z H | right _ => exist _ 0 (conj eq_refl eq_refl) end).
Proof.
  split.
  - intros [z H]. cbn [proj1_sig]. destruct (decide _) as [K|K]; [|contradiction]. f_equal. destruct H, K. f_equal; apply Eqdep_dec.UIP_dec, Bool.bool_dec.
  - intros [z [H K]]. cbn [proj1_sig]. lia.
Qed.
(** A Beta-Bernoulli group in debt dumped into a message that already held counts and an unknown field: *)
Example C95_bb_debt :
  let m0 := Message [One (Some 77); One None] [RVarint 9 5] in
  is_message 64 "BetaBernoulli.Group" m0 /\
  (forall sh : bb_shared unit, grun (BB unit) 1 sh (c_init (BB unit) sh) [GAdd false; GRem true; GMerge [false]] = Ok (mk_bb (-1) 2)) /\
  to_bytes BetaBernoulli_Group_code bb_put (bb_dump (mk_bb (-1) 2)) m0
  = Ok [8; 255; 255; 255; 255; 255; 255; 255; 255; 255; 1; 16; 2; 72; 5] /\
  from_bytes (fun _ => 0%nat) 64 BetaBernoulli_Group_code bb_get (fun x => Ok (bb_load x))
    [8; 255; 255; 255; 255; 255; 255; 255; 255; 255; 1; 16; 2; 72; 5] = Ok (mk_bb (-1) 2).
Proof.
  cbv zeta. split; [|split; [reflexivity|split; vm_compute; reflexivity]].
  exists [required TUint64 1; required TUint64 2]. split; [named|]. split; [repeat constructor; cbn; lia|].
  constructor; [|constructor]. split; [constructor; lia|]. intros f [<-|[<-|[]]] [K _]; cbn in K; discriminate.
Qed.
(** A normal-inverse-Wishart group of two vectors crosses (the numbers are their own bit patterns here), and a file
    of two Dirichlet-discrete groups. *)
Example C95_niw_bytes :
  to_bytes NormalInverseWishart_Group_code (niw_put (fun x : Z => x)) (mk_niw_msg 2 [5; 7] [17; 22; 22; 29]) (Message [One None; Many [1]; Many []] [])
  = Ok ([8; 2; 21; 5; 0; 0; 0; 21; 7; 0; 0; 0] ++ [29; 17; 0; 0; 0; 29; 22; 0; 0; 0; 29; 22; 0; 0; 0; 29; 29; 0; 0; 0]).
Proof. vm_compute. reflexivity. Qed.
Example C95_file_case : Forall (fun m => message_of 0 [repeated TUint64 1] m /\ complete [repeated TUint64 1] m /\
    exists l, records_bytes (message_records [repeated TUint64 1] m) l /\ Z.of_nat (length l) < 2 ^ 31)
  [Message [Many [1; 2; 300]] []; Message [Many []] []] /\
  protobuf_stream_dump [[8; 1; 8; 2; 8; 172; 2]; []] = Ok [7; 0; 0; 0; 8; 1; 8; 2; 8; 172; 2; 0; 0; 0; 0].
Proof.
  split; [|reflexivity]. constructor; [|constructor; [|constructor]].
  all: match goal with |- message_of _ ?s ?m /\ _ /\ _ =>
    assert (M : message_of 0 s m) by (split; [repeat constructor; cbn; lia|constructor]);
    assert (C : complete s m) by (repeat constructor; discriminate);
    destruct (round_trip_full "DirichletDiscrete.Group" DirichletDiscrete_Group_code s ltac:(named) ltac:(named) 0 m M C) as (l & S & B & _);
    split; [exact M|]; split; [exact C|]; exists l; split; [exact B|]; vm_compute in S; injection S as <-; vm_compute; reflexivity
  end.
Qed.
