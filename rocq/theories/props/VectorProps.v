(** Property C50: the array kernels.  [elementwise n io out v] says that [out] is [io]
    with the first n entries replaced by values satisfying v; bounds are the only
    hypotheses.  Every theorem but the last two holds in every arithmetic. *)
From Coq Require Import Reals Lra.
From Verif.model Require Import Base Num NumR VectorMath.
From Verif.spec Require Import VectorSpec RandomSpec PartitionSpec.
From Verif.proof Require Import VectorProof RandomProof.

Local Open Scope num_scope.

Theorem C50_zero : forall (F : Type) (N : Num F) n out, (n <= length out)%nat ->
  exists r, vector_zero n out = Ok r /\ elementwise n out r (fun i y => y = nof 0).
Proof. intros F N. exact (@zero_ok F N). Qed.
Print Assumptions C50_zero.

Theorem C50_shift : forall (F : Type) (N : Num F) n io s, (n <= length io)%nat ->
  exists r, vector_shift n io s = Ok r /\
    elementwise n io r (fun i y => exists x, nth_error io i = Some x /\ y = x + s).
Proof. intros F N. exact (@shift_ok F N). Qed.
Print Assumptions C50_shift.

Theorem C50_scale : forall (F : Type) (N : Num F) n io s, (n <= length io)%nat ->
  exists r, vector_scale n io s = Ok r /\
    elementwise n io r (fun i y => exists x, nth_error io i = Some x /\ y = x * s).
Proof. intros F N. exact (@scale_ok F N). Qed.
Print Assumptions C50_scale.

Theorem C50_negate : forall (F : Type) (N : Num F) n io, (n <= length io)%nat ->
  exists r, vector_negate n io = Ok r /\
    elementwise n io r (fun i y => exists x, nth_error io i = Some x /\ y = - x).
Proof. intros F N. exact (@negate_ok F N). Qed.
Print Assumptions C50_negate.

Theorem C50_add : forall (F : Type) (N : Num F) n io inp, (n <= length io)%nat -> (n <= length inp)%nat ->
  exists r, vector_add n io inp = Ok r /\
    elementwise n io r (fun i y => exists x a, nth_error io i = Some x /\ nth_error inp i = Some a /\ y = x + a).
Proof. intros F N. exact (@add_ok F N). Qed.
Print Assumptions C50_add.

Theorem C50_negate_and_add : forall (F : Type) (N : Num F) n io inp, (n <= length io)%nat -> (n <= length inp)%nat ->
  exists r, vector_negate_and_add n io inp = Ok r /\
    elementwise n io r (fun i y => exists x a, nth_error io i = Some x /\ nth_error inp i = Some a /\ y = a - x).
Proof. intros F N. exact (@negate_and_add_ok F N). Qed.
Print Assumptions C50_negate_and_add.

Theorem C50_add_add : forall (F : Type) (N : Num F) n io a b,
  (n <= length io)%nat -> (n <= length a)%nat -> (n <= length b)%nat ->
  exists r, vector_add_add n io a b = Ok r /\
    elementwise n io r (fun i y => exists x u v, nth_error io i = Some x /\ nth_error a i = Some u /\
       nth_error b i = Some v /\ y = x + (u + v)).
Proof. intros F N. exact (@add_add_ok F N). Qed.
Print Assumptions C50_add_add.

Theorem C50_add_subtract : forall (F : Type) (N : Num F) n io a b,
  (n <= length io)%nat -> (n <= length a)%nat -> (n <= length b)%nat ->
  exists r, vector_add_subtract n io a b = Ok r /\
    elementwise n io r (fun i y => exists x u v, nth_error io i = Some x /\ nth_error a i = Some u /\
       nth_error b i = Some v /\ y = x + (u - v)).
Proof. intros F N. exact (@add_subtract_ok F N). Qed.
Print Assumptions C50_add_subtract.

Theorem C50_add_subtract_scalar : forall (F : Type) (N : Num F) n io s inp,
  (n <= length io)%nat -> (n <= length inp)%nat ->
  exists r, vector_add_subtract_scalar n io s inp = Ok r /\
    elementwise n io r (fun i y => exists x a, nth_error io i = Some x /\ nth_error inp i = Some a /\ y = x + (s - a)).
Proof. intros F N. exact (@add_subtract_scalar_ok F N). Qed.
Print Assumptions C50_add_subtract_scalar.

Theorem C50_multiply_add : forall (F : Type) (N : Num F) n io a b,
  (n <= length io)%nat -> (n <= length a)%nat -> (n <= length b)%nat ->
  exists r, vector_multiply_add n io a b = Ok r /\
    elementwise n io r (fun i y => exists x u v, nth_error io i = Some x /\ nth_error a i = Some u /\
       nth_error b i = Some v /\ y = x + u * v).
Proof. intros F N. exact (@multiply_add_ok F N). Qed.
Print Assumptions C50_multiply_add.

(** exp, log, lgamma, lgamma_nu, out of place and in place *)
Theorem C50_map : forall (F : Type) (N : Num F) n inp out, (n <= length inp)%nat -> (n <= length out)%nat ->
  (exists r, vector_exp n inp out = Ok r /\
    elementwise n out r (fun i y => exists x, nth_error inp i = Some x /\ y = nexp x)) /\
  (exists r, vector_log n inp out = Ok r /\
    elementwise n out r (fun i y => exists x, nth_error inp i = Some x /\ y = nlog x)) /\
  (exists r, vector_lgamma n inp out = Ok r /\
    elementwise n out r (fun i y => exists x, nth_error inp i = Some x /\ y = nlgamma x)) /\
  (exists r, vector_lgamma_nu n inp out = Ok r /\
    elementwise n out r (fun i y => exists x, nth_error inp i = Some x /\ y = nlgamma_nu x)).
Proof. intros F N n inp out H1 H2. repeat split; apply map_ok; auto. Qed.
Print Assumptions C50_map.

Theorem C50_map_in_place : forall (F : Type) (N : Num F) n io, (n <= length io)%nat ->
  (exists r, vector_exp_io n io = Ok r /\
    elementwise n io r (fun i y => exists x, nth_error io i = Some x /\ y = nexp x)) /\
  (exists r, vector_log_io n io = Ok r /\
    elementwise n io r (fun i y => exists x, nth_error io i = Some x /\ y = nlog x)) /\
  (exists r, vector_lgamma_io n io = Ok r /\
    elementwise n io r (fun i y => exists x, nth_error io i = Some x /\ y = nlgamma x)) /\
  (exists r, vector_lgamma_nu_io n io = Ok r /\
    elementwise n io r (fun i y => exists x, nth_error io i = Some x /\ y = nlgamma_nu x)).
Proof. intros F N n io H. repeat split; apply map_io_ok; auto. Qed.
Print Assumptions C50_map_in_place.

(** Reductions: in index order, so the same rounding as the loop. *)
Theorem C50_sum : forall (F : Type) (N : Num F) n l, (n <= length l)%nat ->
  vector_sum n l = Ok (fold_first n nadd (nof 0) l).
Proof. intros F N. exact (@vector_sum_spec F N). Qed.
Print Assumptions C50_sum.

Theorem C50_dot : forall (F : Type) (N : Num F) n a b, (n <= length a)%nat -> (n <= length b)%nat ->
  vector_dot n a b = Ok (fold_first n (fun s p => s + fst p * snd p) (nof 0) (combine a b)).
Proof. intros F N. exact (@vector_dot_spec F N). Qed.
Print Assumptions C50_dot.

Theorem C50_max : forall lg l, l <> [] ->
  exists m, vector_max (N := NumR lg) (length l) l = Ok m /\ is_max l m.
Proof. exact max_ok. Qed.
Print Assumptions C50_max.

Theorem C50_min : forall lg l, l <> [] ->
  exists m, vector_min (N := NumR lg) (length l) l = Ok m /\ is_min l m.
Proof. exact min_ok. Qed.
Print Assumptions C50_min.

(** The two extremum kernels read entry 0 even when size is 0. *)
Theorem C50_min_max_of_empty_refuted : forall (F : Type) (N : Num F),
  exists n l, n = length l /\ vector_max n l = UB /\ vector_min n l = UB.
Proof. intros F N. exists 0%nat, []. repeat split. Qed.
Print Assumptions C50_min_max_of_empty_refuted.

Example C50_nonvacuous : (2 <= length [1; 2; 3]%R)%nat /\
  fold_first 2 Rplus 0%R [1; 2; 3]%R = (0 + 1 + 2)%R /\ is_max [1; 3; 2]%R 3%R.
Proof. repeat split; simpl; auto. intros x [<-|[<-|[<-|[]]]]; lra. Qed.
