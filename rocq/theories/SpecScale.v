(** Words for property C99: rescaling densities and weights by constant factors, and reordering the
    particles.  The fields rescaled and reordered are those the objectives of
    /repo/experiments/annealing/objectives.py:62-135 and /repo/experiments/apgs/objectives.py:17-51
    read. *)
From Coq Require Import Reals.
From Verif Require Export Objectives.
Close Scope R_scope.

(** the log of an expression multiplied by the constant factor [exp c] *)
Definition raised (c : R) (e : ad) : ad := fun t0 t => (e t0 t + c)%R.

(** a node whose density is multiplied by a constant factor *)
Definition rescaled_node (n n' : node_ad) : Prop :=
  n_rv n' = n_rv n /\ exists c, n_lp n' = map (raised c) (n_lp n) /\ n_nrep n' = map (raised c) (n_nrep n).
(** a trace whose densities are, each multiplied by a constant factor of its own *)
Definition rescaled_trace (d d' : dict node_ad) : Prop :=
  Forall2 (fun kn kn' => fst kn' = fst kn /\ rescaled_node (snd kn) (snd kn')) d d'.
(** a step whose incoming weights are multiplied by a constant factor, whose incremental weights are
    multiplied by the factor [exp c], and whose nodes are multiplied by constant factors *)
Definition rescaled (c : R) (o o' : out_ad) : Prop :=
  oa_ix o' = oa_ix o /\ (exists a, oa_lw o' = map (raised a) (oa_lw o)) /\ oa_lv o' = map (raised c) (oa_lv o) /\
  rescaled_trace (oa_proposal o) (oa_proposal o') /\ rescaled_trace (oa_target o) (oa_target o').

(** the entries with the numbers [p], in that order *)
Definition reorder {A} (p : list nat) (l : list A) : list A :=
  flat_map (fun i => match nth_error l i with Some x => [x] | None => [] end) p.
Definition reorder_node (p : list nat) (n : node_ad) : node_ad := mkNode (n_rv n) (reorder p (n_lp n)) (reorder p (n_nrep n)).
Definition reorder_out (p : list nat) (o : out_ad) : out_ad :=
  mkOutAd (oa_ix o) (reorder p (oa_lw o)) (reorder p (oa_lv o))
    (map (fun kn => (fst kn, reorder_node p (snd kn))) (oa_proposal o))
    (map (fun kn => (fst kn, reorder_node p (snd kn))) (oa_target o)).
(** every tensor of a step has one entry per particle *)
Definition per_particle (n : nat) (o : out_ad) : Prop :=
  length (oa_lw o) = n /\ length (oa_lv o) = n /\
  (forall k nd, In (k, nd) (oa_proposal o ++ oa_target o) -> length (n_lp nd) = n /\ length (n_nrep nd) = n).
