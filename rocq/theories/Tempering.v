(** Model of the targets of /repo/experiments/annealing/models.py: Tempered, anneal_between, GMM,
    RingGMM.  Floats are exact reals; log-densities are finite. *)
From Coq Require Import Reals Lra.
From Verif Require Export Annealing Arrays.
Close Scope R_scope.

(** [torch.logit], [torch.sigmoid] *)
Definition logit (b : R) : R := ln (b / (1 - b))%R.
Definition sigmoid (x : R) : R := (/ (1 + exp (- x)))%R.

(** The targets: a Distribution program (its [dist.log_prob]), a Density program (its
    [log_density_fn]), and the Density subclass Tempered (/repo/experiments/annealing/models.py:165-184;
    an optimised logit is a parameter with the same initial value). [V]: values. *)
Inductive tdensity (V : Type) : Type :=
| Distr (name : string) (log_prob : V -> R)
| Dens (name : string) (log_density_fn : V -> R)
| Temp (name : string) (d1 d2 : tdensity V) (lgt : R).
Arguments Distr {V}. Arguments Dens {V}. Arguments Temp {V}.

Definition d_name {V} (d : tdensity V) : string := match d with Distr n _ | Dens n _ | Temp n _ _ _ => n end.

(** Tempered.log_density_fn and its local log_prob, /repo/experiments/annealing/models.py:186-197 *)
Fixpoint log_prob {V} (g : tdensity V) (value : V) : R :=
  match g with
  | Distr _ f => f value
  | Dens _ f => f value
  | Temp _ d1 d2 lgt => (log_prob d1 value * (1 - sigmoid lgt) + log_prob d2 value * sigmoid lgt)%R
  end.

(** Tempered.__init__, /repo/experiments/annealing/models.py:166-184 *)
Definition tempered {V} (name : string) (d1 d2 : tdensity V) (beta : R) : res (tdensity V) :=
  if Rlt_dec 0 beta then if Rlt_dec beta 1 then Ok (Temp name d1 d2 (logit beta)) else Err AssertionError else Err AssertionError.

(** ceiling of a real: [up] is the least integer strictly above *)
Definition ceil (r : R) : Z := (1 - up (- r))%Z.
(** [torch.arange(start, end, step)]: ceil((end - start) / step) points; the bounds must be
    consistent with the sign of the step. *)
Definition arange (start stop step : R) : res (list R) :=
  if Req_EM_T step 0 then Err RuntimeError
  else if Rlt_dec ((stop - start) / step) 0 then Err RuntimeError
  else Ok (map (fun i => start + INR i * step)%R (seq 0 (Z.to_nat (ceil ((stop - start) / step))))).

Fixpoint rmapM {A B} (f : A -> res B) (l : list A) : res (list B) :=
  match l with [] => Ok [] | x :: l' => rbind (f x) (fun y => rmap (cons y) (rmapM f l')) end.

(** anneal_between, /repo/experiments/annealing/models.py:253-262.  [n]: total_num_targets *)
Definition anneal_between {V} (left right : tdensity V) (n : Z) : res (list (tdensity V)) :=
  if (n - 1 =? 0)%Z then Err ZeroDivisionError else
  rbind (arange 0 1 (1 / IZR (n - 1))) (fun pts =>
  let betas := tl pts in
  rbind (rmapM (fun kb => tempered (gname (fst kb)) left right (snd kb)) (combine (seq 1 (Z.to_nat (n - 2))) betas)) (fun path =>
  let path := [left] ++ path ++ [right] in
  if (Z.of_nat (length path) =? n)%Z then Ok path else Err AssertionError)).

(** GMM.log_density_fn, /repo/experiments/annealing/models.py:233-240: [comps] are the log_prob
    functions of the components; torch.stack rejects an empty list. *)
Definition gmm_log_density {V} (comps : list (V -> R)) (value : V) : res R :=
  match comps with
  | [] => Err RuntimeError
  | _ => Ok (ln (rsum (map (fun f => exp (f value)) comps)))
  end.
(** RingGMM.__init__: the means, /repo/experiments/annealing/models.py:243-250 *)
Definition ring_locs (radius : R) (count : nat) : res (list (R * R)) :=
  match count with
  | O => Err ZeroDivisionError
  | _ => let alpha := (2 * PI / INR count)%R in
         Ok (map (fun m => (radius * sin (alpha * INR m), radius * cos (alpha * INR m))%R) (seq 0 count))
  end.
