(** Sampler and Group::sample_value of each scalar model: bb.hpp:154-183, dd.hpp:188-220, dpd.hpp:254-307,
    gp.hpp:166-192, bnb.hpp:168-193, nich.hpp:204-232.  Gamma draws come from an oracle: [gam i a] is the i-th
    draw of the call, from the gamma law of shape a and scale 1.  [u] is what sample_unif01 returns. *)
From Verif.model Require Import Base Num VectorMath Random BB DD DPD GP BNB NICH.

(** A draw requested from a distribution object of the standard library whose own code is not modelled. *)
Inductive std_draw (F : Type) : Type :=
| SPoisson (mean : F)                 (* std::poisson_distribution<int>(mean), random.hpp:77-80 *)
| SNegativeBinomial (k : Z) (p : F)   (* std::negative_binomial_distribution<int>(k, p), random.hpp:82-85 *)
| SNormal (mean stddev : F).          (* std::normal_distribution<float>(mean, stddev), random.hpp:62-66 *)
Arguments SPoisson {F}. Arguments SNegativeBinomial {F}. Arguments SNormal {F}.

Section Samplers.
  Context {F : Type} {N : Num F}.
  Local Open Scope num_scope.

  (** sample_bernoulli, random.hpp:52-55 *)
  Definition sample_bernoulli (u p : F) : bool := u <? p.
  (** sample_gamma with a scale, random.hpp:87-97: std::gamma_distribution(alpha, beta) has the law of beta
      times a draw of scale 1 *)
  Definition sample_gamma (gam : nat -> F -> F) (i : nat) (alpha beta : F) : F := gam i alpha * beta.
  (** sample_chisq, random.hpp:68-75: the law of std::chi_squared_distribution(nu) is that of twice a gamma draw
      of shape nu/2 *)
  Definition sample_chisq (gam : nat -> F -> F) (i : nat) (nu : F) : F := gam i (nu / nof 2) * nof 2.
  (** sample_normal, random.hpp:62-66 *)
  Definition sample_normal (mean variance : F) : std_draw F := SNormal mean (nsqrt variance).
  (** sample_poisson, random.hpp:77-80 *)
  Definition sample_poisson (mean : F) : std_draw F := SPoisson mean.
  (** sample_negative_binomial, random.hpp:82-85 *)
  Definition sample_negative_binomial (p : F) (r : Z) : std_draw F := SNegativeBinomial r p.

  (** BB: Sampler::init, bb.hpp:166-176 *)
  Definition bb_sampler_init (gam : nat -> F -> F) (sh : bb_shared F) (g : bb_group) : outcome F :=
    let ps := [bb_alpha sh + nof (bb_heads g); bb_beta sh + nof (bb_tails g)] in
    let* ps := sample_dirichlet gam 2 None ps in
    vget ps 0.
  (** BB: Sampler::eval, bb.hpp:178-182 *)
  Definition bb_sampler_eval (u heads_prob : F) : bool := sample_bernoulli u heads_prob.
  (** BB: Group::sample_value, bb.hpp:154-160 *)
  Definition bb_sample_value (gam : nat -> F -> F) (u : F) (sh : bb_shared F) (g : bb_group) : outcome bool :=
    let* s := bb_sampler_init gam sh g in Ok (bb_sampler_eval u s).

  (** DD: Sampler::init, dd.hpp:204-213 *)
  Definition dd_sampler_init (gam : nat -> F -> F) (sh : dd_shared F) (g : dd_group) : outcome (list F) :=
    let* ps := vfor 0 (dd_dim sh) (fun i ps =>
      let* a := vget (dd_alphas sh) i in
      let* c := vget (dd_counts g) i in
      Ok (ps ++ [a + nof c])%list) [] in
    sample_dirichlet gam (dd_dim sh) None ps.
  (** DD: Sampler::eval, dd.hpp:215-219 *)
  Definition dd_sampler_eval (u : F) (ps : list F) : outcome Z :=
    let* i := sample_discrete u ps in Ok (Z.of_nat i).
  (** DD: Group::sample_value, dd.hpp:188-194 *)
  Definition dd_sample_value (gam : nat -> F -> F) (u : F) (sh : dd_shared F) (g : dd_group) : outcome Z :=
    let* s := dd_sampler_init gam sh g in dd_sampler_eval u s.

  (** DPD: Sampler::init, dpd.hpp:278-299; [order] visits betas *)
  Definition dpd_sampler_init (gam : nat -> F -> F) (sh : dpd_shared F) (g : Sparse.counter) (order : list (Z * F))
    : outcome (list F * list Z) :=
    let pv := dpd_sampler_probs sh g order in
    let* ps := sample_dirichlet gam (length (fst pv)) None (fst pv) in
    Ok (ps, snd pv).
  (** DPD: Sampler::eval, dpd.hpp:301-306 *)
  Definition dpd_sampler_eval (u : F) (s : list F * list Z) : outcome Z :=
    let* i := sample_discrete u (fst s) in vget (snd s) i.

  (** GP: Sampler::init, gp.hpp:178-184 *)
  Definition gp_sampler_init (gam : nat -> F -> F) (sh : gp_shared F) (g : gp_group F) : F :=
    let post := gp_plus_group sh g in
    sample_gamma gam 0 (gp_alpha post) (nlit 1 1 / gp_inv_beta post).
  (** GP: Sampler::eval, gp.hpp:186-190 *)
  Definition gp_sampler_eval (mean : F) : std_draw F := sample_poisson mean.

  (** BNB: Sampler::init, bnb.hpp:180-186; sample_beta draws x, then y, then perhaps u *)
  Definition bnb_sampler_init (gam : nat -> F -> F) (u : F) (sh : bnb_shared F) (g : bnb_group) : F :=
    let post := bnb_plus_group sh g in
    sample_beta (gam 0%nat (bnb_alpha post)) (gam 1%nat (bnb_beta post)) u (bnb_alpha post) (bnb_beta post).
  (** BNB: Sampler::eval, bnb.hpp:188-192 *)
  Definition bnb_sampler_eval (sh : bnb_shared F) (beta : F) : std_draw F := sample_negative_binomial beta (bnb_r sh).

  (** NICH: Sampler::init, nich.hpp:217-224: the member sigmasq, and the draw that becomes mu *)
  Definition nich_sampler_init (gam : nat -> F -> F) (sh : nich_shared F) (g : nich_group F) : F * std_draw F :=
    let post := nich_plus_group sh g in
    let sigmasq := ni_nu post * ni_sigmasq post / sample_chisq gam 0 (ni_nu post) in
    (sigmasq, sample_normal (ni_mu post) (sigmasq / ni_kappa post)).
  (** NICH: Sampler::eval, nich.hpp:226-230 *)
  Definition nich_sampler_eval (mu sigmasq : F) : std_draw F := sample_normal mu sigmasq.
End Samplers.
