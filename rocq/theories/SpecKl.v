(** Specification for C85: one annealing step whose densities depend on a parameter [t] that is
    being learned, the divergence the step is trained on, and the expectation over independent
    particles. *)
From Coq Require Import Reals.
From Verif Require Export Objectives.
Close Scope R_scope.

(** The outcomes (z_k, z_{k+1}) of one particle, and the log-densities that make up a step:
    the (unnormalised) density of z_k, the forward kernel z_k -> z_{k+1}, the (unnormalised) density
    of z_{k+1}, the reverse kernel z_{k+1} -> z_k. *)
Record step (O : Type) : Type := mkStep {
  s_from : O -> R -> R;
  s_fwd : O -> R;
  s_to : O -> R -> R;
  s_rev : O -> R -> R }.
Arguments mkStep {O}. Arguments s_from {O}. Arguments s_fwd {O}. Arguments s_to {O}. Arguments s_rev {O}.

Section Kl.
  Context {O : Type} (X : list O) (s : step O).
  (** the joint log-densities of the proposal and of the extended target *)
  Definition prop (x : O) (t : R) : R := (s_from s x t + s_fwd s x)%R.
  Definition targ (x : O) (t : R) : R := (s_to s x t + s_rev s x t)%R.
  (** the sum over all outcomes, normalising constants and normalised probabilities *)
  Definition total (h : O -> R) : R := rsum (map h X).
  Definition norm (l : O -> R -> R) (t : R) : R := total (fun x => exp (l x t)).
  Definition mass (l : O -> R -> R) (t : R) (x : O) : R := (exp (l x t) / norm l t)%R.
  Definition mean (l : O -> R -> R) (t : R) (h : O -> R) : R := total (fun x => mass l t x * h x)%R.
  (** KL (proposal || target) *)
  Definition kl (t : R) : R := total (fun x => mass prop t x * (ln (mass prop t x) - ln (mass targ t x)))%R.

  (** What Propose hands to the objective when the particles are [xs] and have equal weights. *)
  Definition particles (ix : Z) (rv : bool) (xs : list O) : out_ad :=
    let node rv (l : O -> R -> R) := mkNode rv (map (fun x => (fun _ t => l x t) : ad) xs) (map (fun x => (fun _ t => l x t) : ad) xs) in
    mkOutAd ix (map (fun _ => dconst 0) xs) (map (fun x => (fun _ t => targ x t - prop x t)%R : ad) xs)
      [(gname_z ix, node rv (s_from s)); (gname_z (ix + 1), node true (fun x _ => s_fwd s x))]
      [(gname_z (ix + 1), node false (s_to s)); (gname_z ix, node true (s_rev s))].
End Kl.

(** the expectation over [n] independent particles *)
Fixpoint iid {O : Type} (E : (O -> R) -> R) (n : nat) (f : list O -> R) : R :=
  match n with
  | 0%nat => f []
  | Datatypes.S n' => E (fun x => iid E n' (fun xs => f (x :: xs)))
  end.
