(** Model of ancestor_indices_systematic, /repo/combinators/resamplers.py:120-135, in the
    floating-point arithmetic in which it runs (binary32 tensors on the CPU, one batch entry).

    Every operation rounds to nearest, ties to even (Flocq's [round]).  Simplifications: the formats
    have no largest number (no intermediate result exceeds 2^24); no NaN (the theorems
    assume a particle whose log-weight is finite). *)
From Coq Require Import Permutation.
From Flocq Require Import Core.
From Verif Require Export Resamplers.
Open Scope R_scope.

(** binary32 and binary64 numbers, and rounding to them *)
Definition f32 (x : R) : Prop := generic_format radix2 (FLT_exp (-149) 24) x.
Definition r32 (x : R) : R := round radix2 (FLT_exp (-149) 24) ZnearestE x.
Definition f64 (x : R) : Prop := generic_format radix2 (FLT_exp (-1074) 53) x.
Definition r64 (x : R) : R := round radix2 (FLT_exp (-1074) 53) ZnearestE x.

(** [summed l s]: [s] is the sum of [l], added up in some order with every addition rounded *)
Inductive summed : list R -> R -> Prop :=
| summed_one x : summed [x] x
| summed_add l l1 l2 a b : Permutation l (l1 ++ l2) -> summed l1 a -> summed l2 b -> summed l (r32 (a + b)).

Section Systematic32.
  (** the implementation's exponential function, and its sum of a non-empty fiber *)
  Context (fexp : R -> R) (sum : list R -> R).

  (** the largest entry; the entries that are -inf do not count *)
  Definition emax (lw : list ereal) : R := rmax (flat_map (fun x => match x with NInf => [] | Fin r => [r] end) lw).
  (** F.softmax(lw), line 127: exp(lw - max) / sum *)
  Definition shifted (mx : R) (x : ereal) : R := match x with NInf => 0 | Fin r => fexp (r32 (r - mx)) end.
  Definition softmax32 (lw : list ereal) : list R :=
    let es := map (shifted (emax lw)) lw in map (fun e => r32 (e / sum es)) es.
  (** cumsum, line 129: adds up in binary64, each partial sum is rounded to binary32 *)
  Fixpoint cumsum32_from (acc : R) (l : list R) : list R :=
    match l with [] => [] | x :: l' => r32 (r64 (acc + x)) :: cumsum32_from (r64 (acc + x)) l' end.
  Definition cumsum32 (l : list R) : list R := cumsum32_from 0 l.
  (** (k + u) / n, line 126 *)
  Definition usteps32 (n : nat) (u : R) : list R := map (fun k => r32 (r32 (INR k + u) / INR n)) (seq 0 n).
  (** lines 126-133 *)
  Definition ancestors32 (lw : list ereal) (u : R) : list nat :=
    let csum := cumsum32 (softmax32 lw) in
    let cmax := rmax csum in
    let ncsum := map (fun x => r32 (x / cmax)) csum in
    map (lower_bound ncsum) (usteps32 (length lw) u).
End Systematic32.
