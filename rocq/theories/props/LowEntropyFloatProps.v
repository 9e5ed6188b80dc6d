(** Property C98: LowEntropy::score_add_value in single precision.  [log2] is libm's log2, used once to fill the table
    of fast_log; [lit] gives the floats of the literals 0.45f and 0.1f; the remaining arguments of NumB do not enter. *)
From Coq Require Import List Reals Lra Lia ZArith Bool.
From Flocq Require Import Core BinarySingleNaN Binary Bits.
From Verif.model Require Import Base Num Sampler FastExp FloatNum FastLog.
From Verif.spec Require Import LogSpec LowEntropyFloatSpec.
From Verif.proof Require Import FastLogProof LowEntropyFloat.
Import ListNotations.
Local Open Scope R_scope.

Section Float.
  Variables (tbl : list Z) (lit : Z -> Z -> binary32) (log2 : binary32 -> binary32)
    (lgam lgam_nu : binary32 -> binary32) (lfact : Z -> binary32) (sq : binary32 -> binary32) (pw : binary32 -> binary32 -> binary32).
  Let NB : Num binary32 := NumB tbl lit (fast_log32 log2) lgam lgam_nu lfact sq pw.

  (** Adding to a group of g >= 1 values scores the logarithm of the factor that its weight gains, to within 2 * 10^-4 for
      groups of more than 10000 values; up to there the error of fast_log is multiplied by g, and the score is
      too low by up to 10^-4 + g / 16000. *)
  Theorem C98_low_entropy_add : forall dl dataset g k n e, good_log2 log2 -> (1 <= g < 2 ^ 31)%Z -> (0 <= k <= n)%Z -> (n < dataset)%Z -> (1 <= e)%Z ->
    exists s, le_score_add (N:=NB) dl dataset g k n e = Ok s /\ is_finite 24 128 s = true /\
      ((g <= 10000)%Z -> - / 10000 - IZR g / 2000000 <= le_gain g - B2R 24 128 s <= / 10000 + IZR g / 16000) /\
      ((10000 < g)%Z -> Rabs (B2R 24 128 s - le_gain g) <= 2 / 10000).
  Proof.
    intros dl dataset g k n e G Hg Hk Hn He.
    pose proof (add_runs tbl lit log2 lgam lgam_nu lfact sq pw dl dataset g k n e ltac:(lia) ltac:(lia) ltac:(lia)) as E. fold NB in E. rewrite E. clear E. destruct (Z.ltb_spec 10000 g) as [B | B].
    - destruct (large_close log2 G g ltac:(lia)) as [F E]. eexists. split; [reflexivity |]. split; [exact F |]. split; [lia | intros _; exact E].
    - destruct (small_close log2 G g ltac:(lia)) as [F E]. eexists. split; [reflexivity |]. split; [exact F |]. split; [intros _; exact E | lia].
  Qed.

  (** The loss is real: for groups of 8200 to 10000 values, where fast_log sees the ratio (g + 1) / g as 1 + 2^-14, the score
      is too low by at least 0.38. *)
  Theorem C98_low_entropy_dip : forall dl dataset g k n e, good_log2 log2 -> (8200 <= g <= 10000)%Z -> (0 <= k <= n)%Z -> (n < dataset)%Z -> (1 <= e)%Z ->
    exists s, le_score_add (N:=NB) dl dataset g k n e = Ok s /\ 38 / 100 <= le_gain g - B2R 24 128 s.
  Proof.
    intros dl dataset g k n e G Hg Hk Hn He.
    pose proof (add_runs tbl lit log2 lgam lgam_nu lfact sq pw dl dataset g k n e ltac:(lia) ltac:(lia) ltac:(lia)) as E. fold NB in E. rewrite E. clear E. destruct (Z.ltb_spec 10000 g) as [B | B]; [lia |].
    eexists. split; [reflexivity |]. exact (proj1 (dip log2 G g Hg)).
  Qed.

  (** The law favours larger groups; the score does not always: a group of 8200 values scores lower by 0.49 than
      one of 8190. *)
  Theorem C98_low_entropy_monotone_refuted : good_log2 log2 -> exists g h : Z, (1 <= g < h)%Z /\
    forall dl dataset k n e, (0 <= k <= n)%Z -> (n < dataset)%Z -> (1 <= e)%Z ->
    exists s t, le_score_add (N:=NB) dl dataset g k n e = Ok s /\ le_score_add (N:=NB) dl dataset h k n e = Ok t /\
      B2R 24 128 t < B2R 24 128 s - 49 / 100.
  Proof.
    intros G. exists 8190%Z, 8200%Z. split; [lia |]. intros dl dataset k n e Hk Hn He.
    exists (small_score log2 8190), (small_score log2 8200).
    split; [exact (add_small tbl lit log2 lgam lgam_nu lfact sq pw dl dataset 8190 k n e ltac:(lia) ltac:(lia) ltac:(lia)) |].
    split; [exact (add_small tbl lit log2 lgam lgam_nu lfact sq pw dl dataset 8200 k n e ltac:(lia) ltac:(lia) ltac:(lia)) | exact (drop log2 G)].
  Qed.

  (** A new group scores the fitted formula to within 2 * 10^-4. *)
  Theorem C98_low_entropy_new : forall dl dataset k n e, good_log2 log2 -> lit 45%Z 100%Z = b32_of_bits 1055286886 -> lit 1%Z 10%Z = b32_of_bits 1036831949 ->
    (0 <= k <= n)%Z -> (n < dataset < 2 ^ 31)%Z -> (1 <= e < 2 ^ 31)%Z ->
    exists s, le_score_add (N:=NB) dl dataset 0 k n e = Ok s /\ is_finite 24 128 s = true /\ Rabs (B2R 24 128 s - le_new dataset n e) <= 2 / 10000.
  Proof. intros dl dataset k n e G L45 L10. exact (open_close tbl lit log2 lgam lgam_nu lfact sq pw G L45 L10 dl dataset k n e). Qed.
End Float.
Print Assumptions C98_low_entropy_add.
Print Assumptions C98_low_entropy_dip.
Print Assumptions C98_low_entropy_monotone_refuted.
Print Assumptions C98_low_entropy_new.

(** A log2, literals, and the factor 4 for the second value of a group. *)
Example C98_log2_exists : good_log2 log2_witness.
Proof. exact log2_witness_good. Qed.
Example C98_gain : le_gain 1 = ln 4.
Proof. unfold le_gain. f_equal. change (IZR ((1 + 1) ^ (1 + 1))) with 4. change (IZR (1 ^ 1)) with 1. lra. Qed.
Example C98_nonvacuous : exists s, le_score_add (N:=NumB [] (fun a _ => if (a =? 45)%Z then b32_of_bits 1055286886 else b32_of_bits 1036831949)
    (fast_log32 log2_witness) (fun x => x) (fun x => x) float_of_int (fun x => x) (fun x _ => x)) 3 20000 9000 5 12000 2 = Ok s /\ 38 / 100 <= le_gain 9000 - B2R 24 128 s.
Proof. apply C98_low_entropy_dip; [exact log2_witness_good | lia ..]. Qed.
Example C98_new_nonvacuous : exists s, le_score_add (N:=NumB [] (fun a _ => if (a =? 45)%Z then b32_of_bits 1055286886 else b32_of_bits 1036831949)
    (fast_log32 log2_witness) (fun x => x) (fun x => x) float_of_int (fun x => x) (fun x _ => x)) 3 20000 0 5 12000 2 = Ok s /\
    is_finite 24 128 s = true /\ Rabs (B2R 24 128 s - le_new 20000 12000 2) <= 2 / 10000.
Proof. apply C98_low_entropy_new; [exact log2_witness_good | reflexivity | reflexivity | lia ..]. Qed.
