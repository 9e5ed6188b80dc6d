(** src/vector_math.cc:55-291 (the portable branch: neither MKL nor Yeppp).
    A float array is a list; a read or write outside it is undefined.  Distinct
    pointers are distinct arrays (they are __restrict__). *)
From Verif.model Require Import Base Num.

Section VM.
  Context {F : Type} {N : Num F}.
  Local Open Scope num_scope.

  (** for (size_t i = lo; i < lo + n; ++i) body (the for loops of vector_math.cc). *)
  Fixpoint vfor {S : Type} (lo n : nat) (body : nat -> S -> outcome S) (s : S) : outcome S :=
    match n with
    | O => Ok s
    | Datatypes.S n' => let* s' := body lo s in vfor (Datatypes.S lo) n' body s'
    end.

  (** io[i] = f(i, io[i]) (vector_math.cc:106-188). *)
  Definition vupdate (f : nat -> F -> outcome F) (i : nat) (io : list F) : outcome (list F) :=
    let* x := vget io i in
    let* y := f i x in
    vset io i y.

  (** vector_zero, vector_math.cc:55-61 *)
  Definition vector_zero (size : nat) (out : list F) := vfor 0 size (fun i o => vset o i (nof 0)) out.

  (** vector_min, vector_math.cc:63-72 *)
  Definition vector_min (size : nat) (inp : list F) : outcome F :=
    let* r0 := vget inp 0 in
    vfor 0 size (fun i res => let* x := vget inp i in Ok (if x <? res then x else res)) r0.

  (** vector_max, vector_math.cc:74-83 *)
  Definition vector_max (size : nat) (inp : list F) : outcome F :=
    let* r0 := vget inp 0 in
    vfor 0 size (fun i res => let* x := vget inp i in Ok (if res <? x then x else res)) r0.

  (** vector_sum, vector_math.cc:85-93 *)
  Definition vector_sum (size : nat) (inp : list F) : outcome F :=
    vfor 0 size (fun i res => let* x := vget inp i in Ok (res + x)) (nof 0).

  (** vector_dot, vector_math.cc:95-104 *)
  Definition vector_dot (size : nat) (in1 in2 : list F) : outcome F :=
    vfor 0 size (fun i res => let* x := vget in1 i in let* y := vget in2 i in Ok (res + x * y)) (nof 0).

  (** vector_shift, vector_math.cc:106-113 *)
  Definition vector_shift (size : nat) (io : list F) (shift : F) :=
    vfor 0 size (vupdate (fun _ x => Ok (x + shift))) io.

  (** vector_scale, vector_math.cc:115-122 *)
  Definition vector_scale (size : nat) (io : list F) (scale : F) :=
    vfor 0 size (vupdate (fun _ x => Ok (x * scale))) io.

  (** vector_negate, vector_math.cc:124-130 *)
  Definition vector_negate (size : nat) (io : list F) :=
    vfor 0 size (vupdate (fun _ x => Ok (- x))) io.

  (** vector_add, vector_math.cc:132-139 *)
  Definition vector_add (size : nat) (io inp : list F) :=
    vfor 0 size (vupdate (fun i x => let* a := vget inp i in Ok (x + a))) io.

  (** vector_negate_and_add, vector_math.cc:141-148 *)
  Definition vector_negate_and_add (size : nat) (io inp : list F) :=
    vfor 0 size (vupdate (fun i x => let* a := vget inp i in Ok (a - x))) io.

  (** vector_add_add, vector_math.cc:150-158 *)
  Definition vector_add_add (size : nat) (io in1 in2 : list F) :=
    vfor 0 size (vupdate (fun i x => let* a := vget in1 i in let* b := vget in2 i in Ok (x + (a + b)))) io.

  (** vector_add_subtract (vector), vector_math.cc:160-168 *)
  Definition vector_add_subtract (size : nat) (io in1 in2 : list F) :=
    vfor 0 size (vupdate (fun i x => let* a := vget in1 i in let* b := vget in2 i in Ok (x + (a - b)))) io.

  (** vector_add_subtract (scalar), vector_math.cc:170-178 *)
  Definition vector_add_subtract_scalar (size : nat) (io : list F) (a : F) (in2 : list F) :=
    vfor 0 size (vupdate (fun i x => let* b := vget in2 i in Ok (x + (a - b)))) io.

  (** vector_multiply_add, vector_math.cc:180-188 *)
  Definition vector_multiply_add (size : nat) (io in1 in2 : list F) :=
    vfor 0 size (vupdate (fun i x => let* a := vget in1 i in let* b := vget in2 i in Ok (x + a * b))) io.

  (** Out-of-place elementwise kernels of vector_math.cc: vector_exp 190-205, vector_log 224-239,
      vector_lgamma 257-264, vector_lgamma_nu 276-283. *)
  Definition vector_map (f : F -> F) (size : nat) (inp out : list F) :=
    vfor 0 size (fun i o => let* x := vget inp i in vset o i (f x)) out.
  (** vector_exp, vector_math.cc:190-205 *)
  Definition vector_exp := vector_map nexp.
  (** vector_log, vector_math.cc:224-239 *)
  Definition vector_log := vector_map nlog.
  (** vector_lgamma, vector_math.cc:257-264 *)
  Definition vector_lgamma := vector_map nlgamma.
  (** vector_lgamma_nu, vector_math.cc:276-283 *)
  Definition vector_lgamma_nu := vector_map nlgamma_nu.

  (** In-place versions: vector_math.cc:207-221, 241-255, 266-272, 285-291. *)
  Definition vector_map_io (f : F -> F) (size : nat) (io : list F) :=
    vfor 0 size (vupdate (fun _ x => Ok (f x))) io.
  (** vector_exp, vector_math.cc:207-221 *)
  Definition vector_exp_io := vector_map_io nexp.
  (** vector_log, vector_math.cc:241-255 *)
  Definition vector_log_io := vector_map_io nlog.
  (** vector_lgamma, vector_math.cc:266-272 *)
  Definition vector_lgamma_io := vector_map_io nlgamma.
  (** vector_lgamma_nu, vector_math.cc:285-291 *)
  Definition vector_lgamma_nu_io := vector_map_io nlgamma_nu.
End VM.
