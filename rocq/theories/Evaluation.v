(** Model of the evaluation of a trained annealing sampler: nvi_test of
    /repo/experiments/annealing/main.py. *)
From Verif Require Export Annealing.

Section Evaluation.
  Context {L : lib}.
  Notation T := (T L). Notation pyval := (pyval T).

  (** The tuple nvi_test returns, /repo/experiments/annealing/main.py:117.  A tensor made by
      torch.stack is the list of its slices. *)
  Record evaluation : Type := mkEval {
    ev_loss : list T; ev_ess : list T; ev_log_Z : list T; ev_samples : list (string * T); ev_out : out L }.

  (** [proposal_traces[t]["g{}".format(t + 1)].value] for [t = i, i + 1, ...],
      /repo/experiments/annealing/main.py:113-116 *)
  Fixpoint sampled_points (i : nat) (traces : list (trace L)) : res (list (string * T)) :=
    match traces with
    | [] => Ok []
    | tr :: rest =>
        match dget (gname (i + 1)) tr with
        | None => Err KeyError
        | Some r => rmap (cons (gname (i + 1), rv_value r)) (sampled_points (S i) rest)
        end
    end.

  (** nvi_test, /repo/experiments/annealing/main.py:95-117.  [ess d] and [log_Z d] are
      effective_sample_size and log_Z_hat along dimension [d] (Resamplers.v models them on the
      entries along that dimension): on a stack, along [d + 1], they act on every slice. *)
  Definition nvi_test (ess log_Z : Z -> T -> T) (q : inf L) (sample_shape : pyval) (batch_dim sample_dims : Z) : M L evaluation :=
    mbind (run q VNone [("sample_shape", sample_shape); ("sample_dims", VInt sample_dims);
                        ("batch_dim", VInt batch_dim); ("_debug", VBool true)]) (fun o =>
    lift (rbind (get_stats o) (fun st =>
          rmap (fun samples => mkEval (st_loss st) (map (ess sample_dims) (st_lw st)) (map (log_Z sample_dims) (st_lw st)) samples o)
            (sampled_points 0 (st_proposal st))))).
End Evaluation.
Arguments evaluation : clear implicits.
