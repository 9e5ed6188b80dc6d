(** Property C49: rows of logarithms of Stirling numbers, for every history of calls. *)
From Coq Require Import Reals Lra.
From Verif.model Require Import Base VectorMath Stirling.
From Verif.spec Require Import StirlingSpec.
From Verif.proof Require Import StirlingProof.
Local Open Scope R_scope.

(** A returned number stands for the logarithm of c; minus infinity for c = 0. *)
Definition log_of (v : ext) (c : R) : Prop :=
  (0 < c /\ v = Fin (ln c)) \/ (c = 0 /\ v = NInf).

Definition exact_row (n : nat) (row : list ext) : Prop :=
  exists c, stirling_row n c /\ Forall2 log_of row c.

Lemma lrow_exact n : exact_row n (lrow n).
Proof.
  exists (map (st1 n) (seq 0 (S n))). split; [apply st1_row |].
  unfold lrow. induction (seq 0 (S n)) as [| k l IH]; cbn [map]; constructor; [| exact IH].
  unfold elg. destruct (Rlt_dec 0 (st1 n k)) as [H | H]; [now left |].
  right. split; [| reflexivity]. pose proof (st1_nonneg n k). lra.
Qed.

(** The cached exact routine, started with an empty cache: whatever rows were asked for
    before, by whatever threads, no call fails and row n holds log |s(n,0)|..log |s(n,n)|. *)
Theorem C49_exact_rows : forall calls,
  exists cache rows, exact_calls calls [] = Ok (cache, rows) /\
    Forall2 (fun call row => exact_row (fst call) row) calls rows.
Proof.
  intros calls. destruct (exact_calls_ok calls 0) as (m & E).
  exists (rows m), (map (fun c => lrow (fst c)) calls). split; [exact E |].
  clear E. induction calls as [| c calls IH]; cbn [map]; constructor; [apply lrow_exact | exact IH].
Qed.
Print Assumptions C49_exact_rows.

(** The public function: the same for n < 32; for n >= 32 every one of the n + 1 entries
    is written, the ends exactly, whatever the vector held before. *)
Theorem C49_public_rows : forall inner calls,
  exists cache rows, stirling_calls inner calls [] = Ok (cache, rows) /\
    Forall2 (fun call row =>
      ((fst call < 32)%nat -> exact_row (fst call) row) /\
      ((32 <= fst call)%nat -> length row = S (fst call) /\
         nth_error row 0 = Some NInf /\ nth_error row (fst call) = Some (Fin 0) /\
         forall k, (1 <= k < fst call)%nat -> nth_error row k = Some (inner (fst call) k))) calls rows.
Proof.
  intros inner calls. destruct (stirling_calls_ok inner calls 0) as (m & out & E & F).
  exists (rows m), out. split; [exact E |].
  clear E. induction F as [| c row calls out H F IH]; constructor; [| exact IH].
  unfold row_for in H. destruct (Nat.ltb_spec (fst c) 32) as [L | L].
  - subst row. split; [intros _; apply lrow_exact | lia].
  - split; [lia | intros _; exact H].
Qed.
Print Assumptions C49_public_rows.

(** The specification determines the numbers: row 4 is 0, 6, 11, 6, 1. *)
Example C49_row_4 : stirling_row 4 [0; 6; 11; 6; 1].
Proof. split; [reflexivity |]. intros x. cbn. ring. Qed.

(** Calls 4, 2, 4 with buffers of the wrong size. *)
Example C49_nonvacuous : exists cache a b c, exact_calls [(4, []); (2, [Fin 7; NaN; Fin 1; Fin 2]); (4, [])]%nat [] = Ok (cache, [a; b; c]) /\ exact_row 4 a /\ exact_row 2 b /\ c = a.
Proof.
  destruct (exact_calls_ok [(4, []); (2, [Fin 7; NaN; Fin 1; Fin 2]); (4, [])]%nat 0) as (m & E).
  exists (rows m), (lrow 4), (lrow 2), (lrow 4). split; [exact E |].
  split; [apply lrow_exact |]. split; [apply lrow_exact | reflexivity].
Qed.
