(** Model of anneal_between, /repo/experiments/annealing/models.py:253-262, with the
    inverse temperatures in the floating-point arithmetic in which they are computed.

    The step [1.0 / (total_num_targets - 1)] is a Python float (binary64).
    [torch.arange(0.0, 1.0, step)] has ceil(1.0 / step) entries (computed in binary64) and is a binary32 tensor;
    its kernel computes entry k either as [start + step * k] in binary64 and rounds it to
    binary32, or, in a vectorised block that begins at entry [base k], adds the multiple
    [(k - base k) * step] to the binary32 value of the first entry of the block.  [base] is a parameter: any division into blocks
    (with blocks of one entry, [base k = k], it is the first formula).  The logit and its sigmoid stay exact. *)
From Flocq Require Import Core.
From Verif Require Export Floats Tempering.
Open Scope R_scope.

Definition arange_entry (base : nat -> nat) (step : R) (k : nat) : R :=
  r32 (r64 (r32 (r64 (INR (base k) * step)) + r64 (INR (k - base k) * step))).
(** torch.arange(0.0, 1.0, step) for a positive step *)
Definition arange32 (base : nat -> nat) (step : R) : list R :=
  map (arange_entry base step) (seq 0 (Z.to_nat (ceil (r64 (1 / step))))).

(** [n]: total_num_targets, at least 2 (see C44_too_few for the others) *)
Definition anneal_between32 {V} (base : nat -> nat) (left right : tdensity V) (n : nat) : res (list (tdensity V)) :=
  let step := r64 (1 / INR (n - 1)) in
  let betas := tl (arange32 base step) in
  rbind (rmapM (fun kb => tempered (gname (fst kb)) left right (snd kb)) (combine (seq 1 (n - 2)) betas)) (fun path =>
  let path := [left] ++ path ++ [right] in
  if (length path =? n)%nat then Ok path else Err AssertionError).
