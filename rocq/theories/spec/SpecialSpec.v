(** IEEE single-precision patterns: 1 sign bit, 8 exponent bits, 23 fraction bits. *)
From Coq Require Import Reals ZArith.
Local Open Scope Z_scope.

Definition pattern (b : Z) : Prop := 0 <= b < 4294967296.

(** Positive normal numbers: sign 0, exponent field 1..254. *)
Definition positive_normal (b : Z) : Prop := 8388608 <= b < 2139095040.

(** NaN: exponent field 255 and a fraction that is not 0. *)
Definition is_nan (b : Z) : Prop := (b / 8388608) mod 256 = 255 /\ b mod 8388608 <> 0.

(** The number: (1 + fraction/2^23) * 2^(exponent - 127). *)
Definition normal_value (b : Z) : R :=
  ((1 + IZR (b mod 8388608) / 8388608) * powerRZ 2 (b / 8388608 - 127))%R.

(** Positive numbers, subnormal ones (exponent field 0) included. *)
Definition positive_value (b : Z) : R :=
  if b <? 8388608 then (IZR b * powerRZ 2 (-149))%R else normal_value b.
