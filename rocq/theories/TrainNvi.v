(** Model of the training of an annealing sampler: nvi_train of
    /repo/experiments/annealing/main.py. *)
From Verif Require Export Annealing.

Section Training.
  Context {L : lib} {P G : Type}.
  Notation T := (T L). Notation pyval := (pyval T).

  (** What torch contributes.  [P]: the parameters of targets, forwards and reverses together with
      the moments Adam keeps; [G]: their gradients.  [backward l] is the gradient that
      [l.backward()] adds to the stored ones, or its exception (a loss that depends on no
      parameter); [update p g] is [optimizer.step()].  [ess d], [log_Z d]: effective_sample_size
      and log_Z_hat along dimension [d] (/repo/combinators/metrics.py:20-31; Resamplers.v models
      them on the entries along that dimension).  [mean] averages all entries, [one_element x]:
      [x.item()] does not raise. *)
  Record torch_train : Type := mkTorch {
    tt_ess : Z -> T -> T; tt_log_Z : Z -> T -> T; tt_mean : T -> T; tt_one_element : T -> bool;
    tt_zero : G; tt_add : G -> G -> G; tt_backward : T -> res G; tt_update : P -> G -> P }.
  Variable W : torch_train.

  (** The sampler: vsmc keeps references to targets, forwards and reverses, so it is a function of
      the current parameters. *)
  Variable q : P -> inf L.
  Variables (sample_shape : pyval) (batch_dim sample_dims : Z).

  (** the arguments of each call of the sampler, /repo/experiments/annealing/main.py:39-45, 57-63 *)
  Definition train_kwargs : dict pyval :=
    [("sample_shape", sample_shape); ("batch_dim", VInt batch_dim); ("sample_dims", VInt sample_dims); ("_debug", VBool true)].

  (** One iteration, /repo/experiments/annealing/main.py:57-90, from parameters [p] and stored
      gradients [g]; they survive an exception.  [out.type] is a class, never equal to the string
      "Resample" of line 65, so [lw] is always [out.log_weight].  Result: the two rows written to
      full_losses and full_lws (a stack is the list of its slices; simplification: all slices
      have one shape). *)
  Definition train_step (p : P) (g : G) (s : st L) : stree L (res (list T * list T) * (P * G) * st L) :=
    tbind (run (q p) VNone train_kwargs s) (fun x =>
    match x with
    | (Err e, s') => Leaf (Err e, (p, g), s')
    | (Ok o, s') =>
        match out_loss o with
        | None => Leaf (Err AttributeError, (p, g), s')
        | Some l =>
            if negb (is_tensor L l) then Leaf (Err AttributeError, (p, g), s') else
            if negb (is_tensor L (out_lw o)) then Leaf (Err TypeError, (p, g), s') else
            match tt_backward W (tt_mean W l) with
            | Err e => Leaf (Err e, (p, tt_zero W), s')
            | Ok gl =>
                let g' := tt_add W (tt_zero W) gl in
                let p' := tt_update W p g' in
                if tt_one_element W (tt_mean W l) && tt_one_element W (tt_ess W sample_dims (out_lw o))
                   && tt_one_element W (tt_log_Z W sample_dims (out_lw o))
                then Leaf (rmap (fun sts => (st_loss sts, st_lw sts)) (get_stats o), (p', g'), s')
                else Leaf (Err ValueError, (p', g'), s')
            end
        end
    end).

  (** the loop, /repo/experiments/annealing/main.py:55-90 *)
  Fixpoint train_loop (n : nat) (p : P) (g : G) (s : st L) : stree L (res (list (list T) * list (list T)) * (P * G) * st L) :=
    match n with
    | O => Leaf (Ok ([], []), (p, g), s)
    | S n' =>
        tbind (train_step p g s) (fun x =>
        match x with
        | (Err e, pg, s') => Leaf (Err e, pg, s')
        | (Ok (row_loss, row_lw), (p', g'), s') =>
            tbind (train_loop n' p' g' s') (fun y =>
            match y with
            | (Err e, pg, s'') => Leaf (Err e, pg, s'')
            | (Ok (losses, lws), pg, s'') => Leaf (Ok (row_loss :: losses, row_lw :: lws), pg, s'')
            end)
        end)
    end.

  (** What nvi_train returns besides the sampler: per iteration, per step. *)
  Record training : Type := mkTraining { tr_losses : list (list T); tr_ess : list (list T); tr_log_Z : list (list T) }.

  (** nvi_train, /repo/experiments/annealing/main.py:26-94.  A first call only sizes the arrays.
      [sample_dims=2] of lines 92-93 is dimension 0 of each slice. *)
  Definition nvi_train (iterations : nat) (p : P) (g : G) (s : st L) : stree L (res training * (P * G) * st L) :=
    tbind (run (q p) VNone train_kwargs s) (fun x =>
    match x with
    | (Err e, s') => Leaf (Err e, (p, g), s')
    | (Ok o, s') =>
        match get_stats o with
        | Err e => Leaf (Err e, (p, g), s')
        | Ok _ =>
            tbind (train_loop iterations p g s') (fun y =>
            match y with
            | (Err e, pg, s'') => Leaf (Err e, pg, s'')
            | (Ok (losses, lws), pg, s'') =>
                Leaf (Ok (mkTraining losses (map (map (tt_ess W 0)) lws) (map (map (tt_log_Z W 0)) lws)), pg, s'')
            end)
        end
    end).
End Training.
Arguments torch_train : clear implicits. Arguments training : clear implicits.
