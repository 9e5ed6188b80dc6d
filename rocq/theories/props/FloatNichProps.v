(** C83: the streaming statistics of NormalInverseChiSq with the rounding of single precision.  The functions
    quantified over (table of roots, logarithms, ...) are those the code below does not call; lit gives the
    value of a literal of the source, and the two the code uses are written 0.f and 1.f. *)
From Coq Require Import Reals Lra Lia ZArith List.
From Flocq Require Import Core BinarySingleNaN Binary Bits.
From Verif.model Require Import Base Num FastExp FloatNum Component HistoryRun NICH.
From Verif.spec Require Import FlavorSpec GaussSpec GrowSpec.
From Verif.proof Require Import BaseProof NICHProof FastExpProof FloatScoresProof FloatNichProof FloatNichAccuracy FloatNichPost FloatNichMerge.
Import ListNotations.
Local Open Scope R_scope.

Notation fin x := (is_finite 24 128 x).
Notation b2r x := (B2R 24 128 x).

(** Only additions and merges, nested in any way and of any length: as long as the statistics are finite the
    sum of squared deviations is not negative, and neither is the posterior variance. *)
Theorem C83_variance_nonneg : forall tbl lit lg lgam lgam_nu lfact sq pw,
  lit 0%Z 1%Z = float_of_int 0 -> lit 1%Z 1%Z = float_of_int 1 ->
  let N := NumB tbl lit lg lgam lgam_nu lfact sq pw in
  forall dl (sh : nich_shared binary32) (l : list (hop binary32)) g,
  only_grows l -> hrun (NICH binary32 (N := N)) dl sh l = Ok g ->
  fin (ni_mean g) = true -> fin (ni_ctv g) = true ->
  0 <= b2r (ni_ctv g) /\
  (fin (ni_kappa sh) = true -> 0 <= b2r (ni_kappa sh) <= bpow radix2 100 ->
   fin (ni_nu sh) = true -> 0 <= b2r (ni_nu sh) <= bpow radix2 100 -> 0 <= b2r (ni_sigmasq sh) ->
   let post := nich_plus_group (N := N) sh g in
   fin (ni_sigmasq post) = true -> 0 <= b2r (ni_sigmasq post)).
Proof.
  intros tbl lit lg lgam lgam_nu lfact sq pw L0 L1 N dl sh l g HG HR FM FT.
  destruct (inv_hrun tbl lit lg lgam lgam_nu lfact sq pw L0 dl sh l g HG HR) as [HC HI].
  destruct (HI FM FT) as [T0 _]. split; [exact T0 |]. intros.
  now apply (post_nonneg tbl lit lg lgam lgam_nu lfact sq pw L1).
Qed.
Print Assumptions C83_variance_nonneg.

(** Adding any n values (1 <= n <= 2^20) of magnitude at most M, in any order: nothing overflows; the mean stays between the
    smallest and the largest value; it is within (n + 11) / 2^25 M of the mean of the values, and the variance
    within (4 n + 40) / 2^24 M^2 of theirs. *)
Theorem C83_streaming_accuracy : forall tbl lit lg lgam lgam_nu lfact sq pw,
  lit 0%Z 1%Z = float_of_int 0 ->
  let N := NumB tbl lit lg lgam lgam_nu lfact sq pw in
  forall dl (sh : nich_shared binary32) (vs : list binary32) M lo hi,
  vs <> [] -> (Z.of_nat (length vs) <= 1048576)%Z -> / 2 ^ 50 <= M <= 2 ^ 40 -> - M <= lo -> hi <= M ->
  Forall (fun v => fin v = true /\ lo <= b2r v <= hi) vs ->
  let xs := map (fun v : binary32 => b2r v) vs in let n := INR (length vs) in
  exists g, hrun (NICH binary32 (N := N)) dl sh (map HAdd vs) = Ok g /\
    ni_count g = Z.of_nat (length vs) /\
    fin (ni_mean g) = true /\ lo <= b2r (ni_mean g) <= hi /\
    Rabs (b2r (ni_mean g) - rmean xs) <= (n + 11) / 33554432 * M /\
    fin (ni_ctv g) = true /\ 0 <= b2r (ni_ctv g) /\
    Rabs (b2r (ni_ctv g) / n - ssd xs / n) <= (4 * n + 40) / 16777216 * M ^ 2.
Proof.
  intros tbl lit lg lgam lgam_nu lfact sq pw L0 N dl sh vs M lo hi NE HL HM Hlo Hhi HV xs n.
  exact (accuracy tbl lit lg lgam lgam_nu lfact sq pw L0 M lo hi HM Hlo Hhi dl sh vs NE HL HV).
Qed.
Print Assumptions C83_streaming_accuracy.

(** With hyperparameters of ordinary size the posterior of such a group is finite, with positive precision
    count, degrees of freedom and variance: the score never takes the logarithm of a negative number. *)
Theorem C83_posterior_positive : forall tbl lit lg lgam lgam_nu lfact sq pw,
  lit 0%Z 1%Z = float_of_int 0 -> lit 1%Z 1%Z = float_of_int 1 ->
  let N := NumB tbl lit lg lgam lgam_nu lfact sq pw in
  forall dl (sh : nich_shared binary32) (vs : list binary32),
  vs <> [] -> (Z.of_nat (length vs) <= 1048576)%Z ->
  Forall (fun v => fin v = true /\ Rabs (b2r v) <= bpow radix2 40) vs ->
  fin (ni_mu sh) = true -> Rabs (b2r (ni_mu sh)) <= bpow radix2 40 ->
  fin (ni_kappa sh) = true -> 0 < b2r (ni_kappa sh) <= bpow radix2 20 ->
  fin (ni_nu sh) = true -> 0 < b2r (ni_nu sh) <= bpow radix2 20 ->
  fin (ni_sigmasq sh) = true -> bpow radix2 (-60) <= b2r (ni_nu sh) * b2r (ni_sigmasq sh) <= bpow radix2 100 ->
  exists g, hrun (NICH binary32 (N := N)) dl sh (map HAdd vs) = Ok g /\
    let post := nich_plus_group (N := N) sh g in
    fin (ni_kappa post) = true /\ 0 < b2r (ni_kappa post) /\ fin (ni_nu post) = true /\ 0 < b2r (ni_nu post) /\
    fin (ni_mu post) = true /\ fin (ni_sigmasq post) = true /\ 0 < b2r (ni_sigmasq post).
Proof.
  intros tbl lit lg lgam lgam_nu lfact sq pw L0 L1 N dl sh vs NE HL HV. intros.
  now apply (posterior tbl lit lg lgam lgam_nu lfact sq pw L0 L1).
Qed.
Print Assumptions C83_posterior_positive.

(** Any history of additions and merges, nested in any way, that never leaves a group without values and
    ends up with n values (1 <= n <= 2^20) of magnitude at most M: nothing overflows; the mean stays between the
    smallest and the largest value; it is within 5 n / 2^24 M of the mean of the values, and the variance
    within 25 n / 2^24 M^2 of theirs.  (The hypothesis on empty groups is needed: C83_empty_merge_refuted.) *)
Theorem C83_merge_accuracy : forall tbl lit lg lgam lgam_nu lfact sq pw,
  lit 0%Z 1%Z = float_of_int 0 ->
  let N := NumB tbl lit lg lgam lgam_nu lfact sq pw in
  forall dl (sh : nich_shared binary32) (l : list (hop binary32)) M lo hi,
  only_grows l -> never_empty 0 l ->
  added l <> [] -> (Z.of_nat (length (added l)) <= 1048576)%Z -> / 2 ^ 50 <= M <= 2 ^ 40 -> - M <= lo -> hi <= M ->
  Forall (fun v => fin v = true /\ lo <= b2r v <= hi) (added l) ->
  let xs := map (fun v : binary32 => b2r v) (added l) in let n := INR (length (added l)) in
  exists g, hrun (NICH binary32 (N := N)) dl sh l = Ok g /\
    ni_count g = Z.of_nat (length (added l)) /\
    fin (ni_mean g) = true /\ lo <= b2r (ni_mean g) <= hi /\
    Rabs (b2r (ni_mean g) - rmean xs) <= 5 * n / 16777216 * M /\
    fin (ni_ctv g) = true /\ 0 <= b2r (ni_ctv g) /\
    Rabs (b2r (ni_ctv g) / n - ssd xs / n) <= 25 * n / 16777216 * M ^ 2.
Proof.
  intros tbl lit lg lgam lgam_nu lfact sq pw L0 N dl sh l M lo hi HG HN NE HL HM Hlo Hhi HV xs n.
  exact (grow_accuracy tbl lit lg lgam lgam_nu lfact sq pw L0 M lo hi HM Hlo Hhi dl sh l HG HN NE HL HV).
Qed.
Print Assumptions C83_merge_accuracy.

(** The posterior of such a group is finite, with positive precision count, degrees of freedom and variance. *)
Theorem C83_merge_posterior_positive : forall tbl lit lg lgam lgam_nu lfact sq pw,
  lit 0%Z 1%Z = float_of_int 0 -> lit 1%Z 1%Z = float_of_int 1 ->
  let N := NumB tbl lit lg lgam lgam_nu lfact sq pw in
  forall dl (sh : nich_shared binary32) (l : list (hop binary32)),
  only_grows l -> never_empty 0 l ->
  added l <> [] -> (Z.of_nat (length (added l)) <= 1048576)%Z ->
  Forall (fun v => fin v = true /\ Rabs (b2r v) <= bpow radix2 40) (added l) ->
  fin (ni_mu sh) = true -> Rabs (b2r (ni_mu sh)) <= bpow radix2 40 ->
  fin (ni_kappa sh) = true -> 0 < b2r (ni_kappa sh) <= bpow radix2 20 ->
  fin (ni_nu sh) = true -> 0 < b2r (ni_nu sh) <= bpow radix2 20 ->
  fin (ni_sigmasq sh) = true -> bpow radix2 (-60) <= b2r (ni_nu sh) * b2r (ni_sigmasq sh) <= bpow radix2 100 ->
  exists g, hrun (NICH binary32 (N := N)) dl sh l = Ok g /\
    let post := nich_plus_group (N := N) sh g in
    fin (ni_kappa post) = true /\ 0 < b2r (ni_kappa post) /\ fin (ni_nu post) = true /\ 0 < b2r (ni_nu post) /\
    fin (ni_mu post) = true /\ fin (ni_sigmasq post) = true /\ 0 < b2r (ni_sigmasq post).
Proof.
  intros tbl lit lg lgam lgam_nu lfact sq pw L0 L1 N dl sh l HG HN NE HL HV. intros.
  now apply (grow_posterior tbl lit lg lgam lgam_nu lfact sq pw L0 L1).
Qed.
Print Assumptions C83_merge_posterior_positive.

(** The literals of the source that are exact ratios of small integers. *)
Definition lit_ratio (n d : Z) : binary32 :=
  if (d =? 1)%Z then float_of_int n else b32_div mode_NE (float_of_int n) (float_of_int d).

Local Lemma lit_ratio_0 : lit_ratio 0 1 = float_of_int 0.
Proof. reflexivity. Qed.
Local Lemma lit_ratio_1 : lit_ratio 1 1 = float_of_int 1.
Proof. reflexivity. Qed.

Definition unit_shared : nich_shared binary32 :=
  mk_nich_shared (float_of_int 0) (float_of_int 1) (float_of_int 1) (float_of_int 1).
Definition add_ints (l : list Z) : list (hop binary32) := map (fun z => HAdd (float_of_int z)) l.

Local Lemma some_inj {A} (x y : A) : Some x = Some y -> x = y.
Proof. now intros [= ->]. Qed.

(** With removals this fails: add 3, 9561, -8476 and 1, then remove -8476 and 9561.  The group holds 3 and 1,
    whose squared deviations sum to 2; the code has -28, and a posterior variance below -8 when every
    hyperparameter but the mean 0 is 1. *)
Theorem C83_removal_refuted : forall tbl lg lgam lgam_nu lfact sq pw,
  let N := NumB tbl lit_ratio lg lgam lgam_nu lfact sq pw in
  exists g, hrun (NICH binary32 (N := N)) 3 unit_shared
      (add_ints [3; 9561; -8476; 1] ++ [HRem (float_of_int (-8476)); HRem (float_of_int 9561)])%Z = Ok g /\
    ni_count g = 2%Z /\ b2r (ni_mean g) = 2 /\ fin (ni_ctv g) = true /\ b2r (ni_ctv g) = -28 /\ ssd [3; 1] = 2 /\
    let post := nich_plus_group (N := N) unit_shared g in
    fin (ni_sigmasq post) = true /\ b2r (ni_sigmasq post) < -8.
Proof.
  intros.
  set (h := (add_ints [3; 9561; -8476; 1] ++ [HRem (float_of_int (-8476)); HRem (float_of_int 9561)])%Z).
  assert (match hrun (NICH binary32 (N := N)) 3 unit_shared h with
    | Ok g => ni_count g = 2%Z /\ fin (ni_mean g) = true /\ b32_compare (ni_mean g) (float_of_int 2) = Some Eq /\
        fin (ni_ctv g) = true /\ b32_compare (ni_ctv g) (float_of_int (-28)) = Some Eq /\
        fin (ni_sigmasq (nich_plus_group (N := N) unit_shared g)) = true /\
        b32_compare (ni_sigmasq (nich_plus_group (N := N) unit_shared g)) (float_of_int (-8)) = Some Lt
    | _ => False end) as C by (vm_compute; repeat split).
  destruct (hrun (NICH binary32 (N := N)) 3 unit_shared h) as [g | |]; try contradiction C.
  destruct C as (C1 & C2 & C3 & C4 & C5 & C6 & C7).
  exists g. split; [reflexivity |]. split; [exact C1 |].
  destruct (int_ok 2 eq_refl) as [E2 F2]. destruct (int_ok (-28) eq_refl) as [E28 F28]. destruct (int_ok (-8) eq_refl) as [E8 F8].
  rewrite compare_ok in C3, C5, C7 by assumption. apply some_inj in C3, C5, C7.
  apply Rcompare_Eq_inv in C3, C5. apply Rcompare_Lt_inv in C7. rewrite E2 in C3. rewrite E28 in C5. rewrite E8 in C7.
  split; [exact C3 |]. split; [exact C4 |]. split; [exact C5 |]. split; [| split; [exact C6 | exact C7]].
  rewrite ssd_alt by discriminate. unfold rsq. cbn. unfold Rsqr. lra.
Qed.
Print Assumptions C83_removal_refuted.

(** Merging two new groups divides 0 by 0: mean and variance are NaN, and no later additions or merges repair
    the mean. *)
Theorem C83_empty_merge_refuted : forall tbl lit lg lgam lgam_nu lfact sq pw,
  lit 0%Z 1%Z = float_of_int 0 ->
  let N := NumB tbl lit lg lgam lgam_nu lfact sq pw in
  forall dl (sh : nich_shared binary32),
  (exists g, hrun (NICH binary32 (N := N)) dl sh [HMerge []] = Ok g /\ ni_count g = 0%Z /\
     is_nan 24 128 (ni_mean g) = true /\ is_nan 24 128 (ni_ctv g) = true) /\
  (forall l g, only_grows l -> hrun (NICH binary32 (N := N)) dl sh (HMerge [] :: l) = Ok g ->
     is_nan 24 128 (ni_mean g) = true).
Proof.
  intros tbl lit lg lgam lgam_nu lfact sq pw L0 N dl sh.
  exact (empty_merge tbl lit lg lgam lgam_nu lfact sq pw L0 dl sh).
Qed.
Print Assumptions C83_empty_merge_refuted.

(** ** Cases *)
Example C83_case_nonneg : forall tbl lg lgam lgam_nu lfact sq pw,
  let N := NumB tbl lit_ratio lg lgam lgam_nu lfact sq pw in
  let l := (add_ints [3; 9561] ++ [HMerge (add_ints [-8476; 1])])%Z in
  only_grows l /\ exists g, hrun (NICH binary32 (N := N)) 3 unit_shared l = Ok g /\
    fin (ni_mean g) = true /\ fin (ni_ctv g) = true /\ fin (ni_sigmasq (nich_plus_group (N := N) unit_shared g)) = true.
Proof.
  intros. split; [cbn; tauto |].
  assert (match hrun (NICH binary32 (N := N)) 3 unit_shared l with
    | Ok g => Some (fin (ni_mean g), fin (ni_ctv g), fin (ni_sigmasq (nich_plus_group (N := N) unit_shared g)))
    | _ => None end = Some (true, true, true)) as C by (vm_compute; reflexivity).
  destruct (hrun (NICH binary32 (N := N)) 3 unit_shared l) as [g | |]; try discriminate C. injection C as C1 C2 C3. now exists g.
Qed.
Example C83_case_accuracy : exists vs : list binary32, vs <> [] /\ (Z.of_nat (length vs) <= 1048576)%Z /\
  / 2 ^ 50 <= 1000 <= 2 ^ 40 /\ Forall (fun v => fin v = true /\ -1000 <= b2r v <= 7 /\ Rabs (b2r v) <= bpow radix2 40) vs /\
  lit_ratio 0 1 = float_of_int 0 /\ lit_ratio 1 1 = float_of_int 1.
Proof.
  exists (map float_of_int [-1000; 7; 7; 0]%Z). split; [discriminate |]. split; [cbn; lia |]. split; [lra |].
  split; [| split; [exact lit_ratio_0 | exact lit_ratio_1]].
  assert (1000000000 <= bpow radix2 40) as B
    by (change (bpow radix2 40) with (IZR (Z.pow_pos 2 40)); apply IZR_le; vm_compute; discriminate).
  assert (forall z, (-1000 <= z <= 7)%Z -> fin (float_of_int z) = true /\ -1000 <= b2r (float_of_int z) <= 7 /\ Rabs (b2r (float_of_int z)) <= bpow radix2 40) as P.
  { intros z Hz. destruct (int_ok z ltac:(lia)) as [E F]. split; [exact F |]. rewrite E.
    assert (IZR (-1000) <= IZR z <= IZR 7) as Q by (split; apply IZR_le; lia).
    split; [exact Q |]. apply Rabs_le. lra. }
  repeat (apply Forall_cons; [apply P; lia |]). constructor.
Qed.
Example C83_case_posterior :
  fin (ni_mu unit_shared) = true /\ Rabs (b2r (ni_mu unit_shared)) <= bpow radix2 40 /\
  fin (ni_kappa unit_shared) = true /\ 0 < b2r (ni_kappa unit_shared) <= bpow radix2 20 /\
  fin (ni_nu unit_shared) = true /\ 0 < b2r (ni_nu unit_shared) <= bpow radix2 20 /\
  bpow radix2 (-60) <= b2r (ni_nu unit_shared) * b2r (ni_sigmasq unit_shared) <= bpow radix2 100.
Proof.
  unfold unit_shared. cbn [ni_mu ni_kappa ni_nu ni_sigmasq].
  destruct (int_ok 0 eq_refl) as [E0 F0]. destruct (int_ok 1 eq_refl) as [E1 F1]. rewrite E0, E1, Rabs_R0.
  pose proof (bpow_le radix2 0 40 ltac:(lia)). pose proof (bpow_le radix2 0 20 ltac:(lia)).
  pose proof (bpow_le radix2 0 100 ltac:(lia)). pose proof (bpow_le radix2 (-60) 0 ltac:(lia)).
  assert (bpow radix2 0 = 1) by reflexivity. repeat split; try assumption; lra.
Qed.

(** Two values, then a group of two with another group of one merged into it, then a new group, then a value. *)
Definition nested_history : list (hop binary32) :=
  (add_ints [-1000; 7] ++ [HMerge (add_ints [7; 3] ++ [HMerge (add_ints [5])]); HMerge []] ++ add_ints [0])%Z.
Example C83_case_merge : only_grows nested_history /\ never_empty 0 nested_history /\
  added nested_history = map float_of_int [-1000; 7; 7; 3; 5; 0]%Z /\ (Z.of_nat (length (added nested_history)) <= 1048576)%Z /\
  Forall (fun v => fin v = true /\ -1000 <= b2r v <= 7 /\ Rabs (b2r v) <= bpow radix2 40) (added nested_history).
Proof.
  split; [cbn; tauto |]. split; [cbn; repeat split; lia |]. split; [reflexivity |]. split; [cbn; lia |].
  assert (1000000000 <= bpow radix2 40) as B
    by (change (bpow radix2 40) with (IZR (Z.pow_pos 2 40)); apply IZR_le; vm_compute; discriminate).
  assert (forall z, (-1000 <= z <= 7)%Z -> fin (float_of_int z) = true /\ -1000 <= b2r (float_of_int z) <= 7 /\ Rabs (b2r (float_of_int z)) <= bpow radix2 40) as P.
  { intros z Hz. destruct (int_ok z ltac:(lia)) as [E F]. split; [exact F |]. rewrite E.
    assert (IZR (-1000) <= IZR z <= IZR 7) as Q by (split; apply IZR_le; lia).
    split; [exact Q |]. apply Rabs_le. lra. }
  change (added nested_history) with (map float_of_int [-1000; 7; 7; 3; 5; 0]%Z).
  repeat (apply Forall_cons; [apply P; lia |]). constructor.
Qed.
