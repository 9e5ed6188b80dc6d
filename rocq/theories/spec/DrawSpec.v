(** Laws of independent gamma draws, by integration over growing boxes.  No reference to the model of the code. *)
From Coq Require Import List ZArith Reals.
From Coquelicot Require Import Coquelicot.
Import ListNotations.
Local Open Scope R_scope.

(** Density of the gamma law with shape a and scale 1, up to a constant. *)
Definition gamma_weight (a x : R) : R := Rpower x (a - 1) * exp (- x).

(** Integral of f(x_0, ..., x_{k-1}) against the product of the gamma weights of the given shapes, each
    coordinate running from lo to hi. *)
Fixpoint box_integral (lo hi : R) (shapes : list R) (f : list R -> R) : R :=
  match shapes with
  | [] => f []
  | a :: t => RInt (fun x => gamma_weight a x * box_integral lo hi t (fun xs => f (x :: xs))) lo hi
  end.

(** The expected value of f at independent gamma draws of the given shapes is v: the limit of its average over
    the boxes [1/n, n]^k. *)
Definition gamma_mean (shapes : list R) (f : list R -> R) (v : R) : Prop :=
  is_lim_seq (fun n => box_integral (/ INR (S n)) (INR (S n)) shapes f /
                       box_integral (/ INR (S n)) (INR (S n)) shapes (fun _ => 1)) v.

(** lg is the logarithm of Euler's integral: Gamma(a) is the integral of the weight over the half line. *)
Definition is_log_gamma (lg : R -> R) : Prop :=
  forall a, 0 < a -> is_lim_seq (fun n => RInt (gamma_weight a) (/ INR (S n)) (INR (S n))) (exp (lg a)).

(** A property of a uniform draw from [0, 1) has probability p: it holds exactly on an interval of length p. *)
Definition uniform_prob (A : R -> Prop) (p : R) : Prop :=
  exists lo, 0 <= lo /\ 0 <= p /\ lo + p <= 1 /\ forall u, 0 <= u < 1 -> (A u <-> lo <= u < lo + p).

(** The gamma draws made by a sampler that asks [gam] for them one after the other, with the given shapes. *)
Fixpoint draws_from (gam : nat -> R -> R) (i : nat) (shapes : list R) : list R :=
  match shapes with [] => [] | a :: t => gam i a :: draws_from gam (S i) t end.
Definition positive_draws (gam : nat -> R -> R) : Prop := forall i a, 0 < a -> 0 < gam i a.
Definition product (l : list R) : R := fold_right Rmult 1 l.

(** Values drawn by a sampler have the law given by [law].  [sampler gam u v]: with gamma draws [gam] and uniform
    draw u the sampler produces v.  [law vs r]: the values vs, drawn one after the other from one sampler, should
    have probability r.  Given the gamma draws xs, each v has some probability p xs v over u; the chance of the
    values vs is then the mean, over xs, of the product of those. *)
Definition draws_follow {V : Type} (shapes : list R) (sampler : (nat -> R -> R) -> R -> V -> Prop)
    (law : list V -> R -> Prop) : Prop :=
  exists p : list R -> V -> R,
    (forall gam, positive_draws gam -> forall v, uniform_prob (fun u => sampler gam u v) (p (draws_from gam 0 shapes) v)) /\
    (forall vs r, law vs r -> gamma_mean shapes (fun xs => product (map (p xs) vs)) r).

(** The probability that a group's own scores give to values vs arriving one after the other: the first is scored,
    then added, and so on; the last need not be added. *)
Inductive predicted {G V : Type} (score : G -> V -> R -> Prop) (add : G -> V -> G -> Prop) : G -> list V -> R -> Prop :=
| predicted_nil g : predicted score add g [] 1
| predicted_last g v s : score g v s -> predicted score add g [v] (exp s)
| predicted_cons g v s g' vs r : score g v s -> add g v g' -> predicted score add g' vs r ->
    predicted score add g (v :: vs) (exp s * r).

(** The same for a sampler that, with gamma draws [gam] and uniform draw u, hands over to a distribution in which
    value v has probability or density [sampler gam u v]. *)
Definition densities_follow {V : Type} (shapes : list R) (sampler : (nat -> R -> R) -> R -> V -> R)
    (law : list V -> R -> Prop) : Prop :=
  exists p : list R -> V -> R,
    (forall gam, positive_draws gam -> forall u v, sampler gam u v = p (draws_from gam 0 shapes) v) /\
    (forall vs r, law vs r -> gamma_mean shapes (fun xs => product (map (p xs) vs)) r).

(** Poisson law with the given mean; 0^0 = 1. *)
Definition poisson_pmf (m : R) (v : nat) : R := exp (- m) * m ^ v / INR (fact v).
(** Number of failures before the k-th success, each trial succeeding with probability p. *)
Definition negbin_pmf (k : nat) (p : R) (v : nat) : R := Binomial.C (v + k - 1) v * p ^ k * (1 - p) ^ v.

(** Normal law with the given mean and standard deviation. *)
Definition normal_weight (mu sd x : R) : R := exp (- ((x - mu) / sd)² / 2).
Definition normal_density (mu sd x : R) : R := normal_weight mu sd x / (sd * sqrt (2 * PI)).
(** The expected value of f at a normal draw is v: the limit of its average over [-n, n]. *)
Definition normal_mean (mu sd : R) (f : R -> R) (v : R) : Prop :=
  is_lim_seq (fun n => RInt (fun x => normal_weight mu sd x * f x) (- INR n) (INR n) /
                       RInt (normal_weight mu sd) (- INR n) (INR n)) v.
(** Values drawn by a sampler that, with gamma draws [gam], draws a centre m from the normal law [centre gam], and
    then each value from the normal law [value gam m] (mean and standard deviation).  Given the gamma draws xs, the
    values vs have joint density p xs vs, the mean over m of the product of their densities. *)
Definition normal_draws_follow (shapes : list R) (centre : (nat -> R -> R) -> R * R) (value : (nat -> R -> R) -> R -> R * R)
    (law : list R -> R -> Prop) : Prop :=
  exists p : list R -> list R -> R,
    (forall gam, positive_draws gam -> forall vs,
       normal_mean (fst (centre gam)) (snd (centre gam))
         (fun m => product (map (normal_density (fst (value gam m)) (snd (value gam m))) vs)) (p (draws_from gam 0 shapes) vs)) /\
    (forall vs r, law vs r -> gamma_mean shapes (fun xs => p xs vs) r).

(** values that can still be added without wrapping the uint32_t fields count and sum *)
Fixpoint room (count sum : Z) (vs : list Z) : Prop :=
  (0 <= count < 4294967296 /\ 0 <= sum < 4294967296)%Z /\
  match vs with [] => True | v :: t => (0 <= v)%Z /\ room (count + 1) (sum + v) t end.

(** the product of the binomial coefficients C(v+r-1, v) of the values *)
Definition coefs (r : nat) (vs : list Z) : R := product (map (fun v => Binomial.C (Z.to_nat v + r - 1) (Z.to_nat v)) vs).
