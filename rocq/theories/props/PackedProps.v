(** Property C15 of Packed_<Value>. *)
From Verif.model Require Import Base Packed.
From Verif.proof Require Import PackedProof.
From Coq Require Import Permutation.

(** C15. Removal at a valid position removes exactly that element; only the last
    element changes position. *)
Theorem C15_packed_remove : forall A dl (l : list A) pos a,
  nth_error l pos = Some a ->
  exists l', packed_remove dl l pos = Ok l' /\ Permutation l (a :: l') /\
    S (length l') = length l /\
    (forall i, i <> pos -> i < length l' -> nth_error l' i = nth_error l i) /\
    (pos < length l' -> nth_error l' pos = nth_error l (length l - 1)).
Proof. exact @packed_remove_spec. Qed.
Print Assumptions C15_packed_remove.

Example C15_case : packed_remove 0 [10; 11; 12; 13] 1 = Ok [10; 13; 12].
Proof. reflexivity. Qed.

(** Adding then removing at the new position restores the vector. *)
Theorem C15_packed_add_remove : forall A dl (l : list A) a,
  packed_remove dl (packed_add l a) (length l) = Ok l.
Proof. exact @packed_add_remove. Qed.
Print Assumptions C15_packed_add_remove.

(** Outside the range the call is reported at debug level >= 1 and undefined below. *)
Theorem C15_packed_remove_out_of_range : forall A dl (l : list A) pos, length l <= pos ->
  packed_remove dl l pos = if 1 <=? dl then Fail else UB.
Proof. exact @packed_remove_bad. Qed.
Print Assumptions C15_packed_remove_out_of_range.
