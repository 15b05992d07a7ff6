(** Model of the training objectives, /repo/experiments/annealing/objectives.py.

    Autograd: a scalar that may require gradients is a function of two times, [e t0 t]: the
    parameters move along a curve, [e t0 t] is the value the expression has at time [t] when all
    its detached parts are frozen at time [t0].  Its value at [t0] is [e t0 t0]; its gradient at
    [t0] (along the curve) is the derivative of [e t0] at [t0].
    Tensors are the lists of their entries along the sample dimension ([sample_dims = 0]): all
    operations below act independently on the other dimensions.  Floats are exact reals. *)
From Coq Require Import Reals.
From Verif Require Export Annealing Arrays.
Close Scope R_scope.

Definition ad : Type := R -> R -> R.
Definition value (e : ad) (t0 : R) : R := e t0 t0.
Definition has_grad (e : ad) (t0 g : R) : Prop := derivable_pt_lim (e t0) t0 g.

(** torch operations: constants, [+], [-], [*], negation, exp, [.detach()], sum, logsumexp, softmax *)
Definition dconst (r : R) : ad := fun _ _ => r.
Definition dadd (a b : ad) : ad := fun t0 t => (a t0 t + b t0 t)%R.
Definition dsub (a b : ad) : ad := fun t0 t => (a t0 t - b t0 t)%R.
Definition dmul (a b : ad) : ad := fun t0 t => (a t0 t * b t0 t)%R.
Definition dneg (a : ad) : ad := fun t0 t => (- a t0 t)%R.
Definition dexp (a : ad) : ad := fun t0 t => exp (a t0 t).
Definition ddetach (a : ad) : ad := fun t0 _ => a t0 t0.
Definition dsum (l : list ad) : ad := fun t0 t => rsum (map (fun e => e t0 t) l).
Definition dlogsumexp (l : list ad) : ad := fun t0 t => ln (rsum (map (fun e => exp (e t0 t)) l)).
Definition dsoftmax (l : list ad) : list ad :=
  map (fun e => fun t0 t => (exp (e t0 t) / rsum (map (fun e' => exp (e' t0 t)) l))%R) l.
Definition zip_with {A B C} (f : A -> B -> C) (a : list A) (b : list B) : list C :=
  map (fun p => f (fst p) (snd p)) (combine a b).

(** Broadcasting along the sample dimension: a tensor with one entry there, or without that dimension
    (torch.tensor(0.0)), is a list with one entry, and is repeated. Other sizes must be equal; where
    they are not torch raises, and so do the callers below. *)
Definition bcast {A B C} (f : A -> B -> C) (a : list A) (b : list B) : list C :=
  match a, b with
  | [x], _ => map (f x) b
  | _, [y] => map (fun x => f x y) a
  | _, _ => zip_with f a b
  end.
Definition fits {A B} (a : list A) (b : list B) : bool :=
  Nat.eqb (length a) (length b) || Nat.eqb (length a) 1 || Nat.eqb (length b) 1.

(** _estimate_mc, /repo/experiments/annealing/objectives.py:25-33.  The softmax of a tensor without
    dimensions is 1. *)
Definition estimate_mc (values log_weights : list ad) : ad := dsum (bcast dmul (dsoftmax log_weights) values).

(** _eval0, _eval1, /repo/experiments/annealing/objectives.py:219-224 *)
Definition eval0 (e : ad) : ad := dsub e (ddetach e).
Definition eval1 (e : ad) : ad := dexp (eval0 e).

(** A node of a trace as the objectives see it: whether it is a RandomVariable, its [_log_prob],
    and the [_log_prob] of its copy made by _eval_nrep
    (/repo/experiments/annealing/objectives.py:227-240: the same node at the detached value). *)
Record node_ad : Type := mkNode { n_rv : bool; n_lp : list ad; n_nrep : list ad }.
(** The fields of Propose's result that the objectives read. *)
Record out_ad : Type := mkOutAd { oa_ix : Z; oa_lw : list ad; oa_lv : list ad; oa_proposal : dict node_ad; oa_target : dict node_ad }.

Definition getitem {V} (d : dict V) (k : string) : res V := match dget k d with Some v => Ok v | None => Err KeyError end.

(** nvo_avo, /repo/experiments/annealing/objectives.py:62-73 *)
Definition nvo_avo (o : out_ad) : ad :=
  let lw := map (fun _ => dconst 0) (oa_lv o) in
  let f := map dneg (oa_lv o) in
  estimate_mc f lw.

(** nvo_rkl, /repo/experiments/annealing/objectives.py:76-135.  [math.log] of a zero size raises.
    [lw] has one entry per sample, or just one (see C84); simplification: the log-probabilities of
    nodes have as many entries as [lv]. *)
Definition nvo_rkl (o : out_ad) : res ad :=
  let lw := map ddetach (oa_lw o) in
  let lv := oa_lv o in
  rbind (getitem (oa_proposal o) (gname_z (oa_ix o))) (fun rv_proposal =>
  rbind (getitem (oa_target o) (gname_z (oa_ix o + 1))) (fun rv_target =>
  rbind (getitem (oa_proposal o) (gname_z (oa_ix o + 1))) (fun rv_fwd =>
  rbind (getitem (oa_target o) (gname_z (oa_ix o))) (fun rv_rev =>
  if Nat.eqb (length lv) 0 then Err ValueError else
  if negb (fits lw lv) then Err RuntimeError else
  let ldZ := dsub (dlogsumexp (map ddetach lv)) (dconst (ln (INR (length lv)))) in
  let f := map (fun v => dneg (dsub v ldZ)) lv in
  let grad_log_Z1_term := if n_rv rv_proposal then dconst 0 else estimate_mc (n_lp rv_proposal) lw in
  let grad_log_Z2_term := if n_rv rv_target then dconst 0
                          else estimate_mc (n_nrep rv_target) (bcast dadd lw (map ddetach lv)) in
  let baseline := estimate_mc (map ddetach f) lw in
  let kl_term := estimate_mc (zip_with (fun x lp => dmul (dsub x baseline) (eval1 (dsub lp grad_log_Z1_term))) f (n_lp rv_proposal)) lw in
  Ok (dadd (dadd kl_term (eval0 grad_log_Z2_term)) baseline))))).

(** nvo_rkl_mod, /repo/experiments/annealing/objectives.py:138-216: after the four lookups it
    evaluates [sample_dim], a name that is not defined (the parameter is [sample_dims]); nothing
    after that line runs. *)
Definition nvo_rkl_mod (o : out_ad) : res ad :=
  rbind (getitem (oa_proposal o) (gname_z (oa_ix o))) (fun _ =>
  rbind (getitem (oa_target o) (gname_z (oa_ix o + 1))) (fun _ =>
  rbind (getitem (oa_proposal o) (gname_z (oa_ix o + 1))) (fun _ =>
  rbind (getitem (oa_target o) (gname_z (oa_ix o))) (fun _ =>
  Err NameError)))).

(** loss_is, /repo/experiments/apgs/objectives.py:17-25, on one batch entry after another:
    [log_w], [log_q], [log_p] hold, per batch entry, the list over particles; [.mean()] divides by
    the number of batch entries.  [reparameterized=False] log-joints are inputs here. *)
Definition dmean (l : list ad) : ad := fun t0 t => (rsum (map (fun e => e t0 t) l) / INR (length l))%R.
Definition weighted (log_w : list (list ad)) (x : list (list ad)) : ad :=
  dmean (zip_with (fun lw xs => estimate_mc (map dneg xs) (map ddetach lw)) log_w x).
Definition loss_is (log_w log_q log_p : list (list ad)) (total_loss : ad) : ad :=
  dadd (dadd (weighted log_w log_q) (weighted log_w log_p)) total_loss.
