(** Specification for the annealing sampler run on a population of particles (property C61):
    what it means that a batched annealing problem is a single-particle problem run on every
    particle, and the unnormalised density of the last target. *)
From Verif Require Export SpecParticles SpecAnnealing.

Section Sampler.
  Context {LV LS : lib} (W : array_view LV) (N B : nat) (P : population LV LS).

  (** A batched target is a batch of distributions, or a log-density computed particle by
      particle that is finite. *)
  Definition copies_target (t : target LV) (t1 : target LS) : Prop :=
    match t, t1 with
    | TDist d _, TDist d1 _ => forall s b, s < N -> b < B -> dpart P s b d = d1
    | TDens f, TDens f1 => forall v, particles W N B v -> log_probs W N B (f v) /\
        forall s b, s < N -> b < B -> part P s b (f v) = f1 (part P s b v)
    | _, _ => False
    end.
  (** every particle of the batched problem [pb] follows the single-particle problem [pb1] *)
  Record copies_problem (pb : problem LV) (pb1 : problem LS) : Prop := mkCopiesProblem {
    cp_d0 : forall s b, s < N -> b < B -> dpart P s b (pb_d0 pb) = pb_d0 pb1;
    cp_target : forall k, copies_target (pb_target pb k) (pb_target pb1 k);
    cp_fwd : forall k x s b, particles W N B x -> s < N -> b < B -> dpart P s b (pb_fwd pb k x) = pb_fwd pb1 k (part P s b x);
    cp_rev : forall k x s b, particles W N B x -> s < N -> b < B -> dpart P s b (pb_rev pb k x) = pb_rev pb1 k (part P s b x) }.

  (** the points z_k live in the space [Z k] *)
  Record path_spaces (M : measures LS) (Z : nat -> Sp M) (pb1 : problem LS) : Prop := mkPathSpaces {
    ps_d0 : space M (pb_d0 pb1) = Z 0;
    ps_fwd : forall k x, space M (pb_fwd pb1 k x) = Z (S k);
    ps_rev : forall k x, space M (pb_rev pb1 k x) = Z k }.

  (** the unnormalised density of the [K]-th target *)
  Definition path_density (M : measures LS) (pb1 : problem LS) (K : nat) (z : T LS) : R :=
    exp (lw M (match K with O => logp LS (pb_d0 pb1) z | S _ => target_logp (pb_target pb1 K) z end)).
End Sampler.
