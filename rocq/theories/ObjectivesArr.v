(** Model of the objective nvo_avo on whole tensors, as the loss function of vsmc calls it:
    /repo/experiments/annealing/objectives.py:62-73 with _estimate_mc,
    /repo/experiments/annealing/objectives.py:25-33, for sample_dims = 0.  (Objectives.v models
    the same function, with gradients, on the entries along the sample dimension.)
    Simplifications: the log-weights are finite numbers, and gradients are not represented. *)
From Verif Require Export Resamplers Inference.
Open Scope nat_scope.

(** [_estimate_mc(-lv, zeros)]: softmax over dimension 0, product, sum over dimension 0 *)
Definition avo_values (lv : arr) : arr :=
  mkArr (tl (shape lv)) (fun rest =>
    let nw := softmax (map (fun _ => Fin 0) (fiber0 lv rest)) in
    let f := map (fun x => (- fin x)%R) (fiber0 lv rest) in
    Fin (rsum (map (fun wf => (fst wf * snd wf)%R) (combine nw f)))).
(** [out.lv] is an attribute that only Propose sets *)
Definition nvo_avo_tensor {L : lib} (W : array_view L) (o : out L) : res (T L) :=
  match out_px o with
  | None => Err AttributeError
  | Some px => Ok (of_arr W (avo_values (to_arr W (px_lv px))))
  end.
