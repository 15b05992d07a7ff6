(** Model of what /repo/experiments/apgs/main.py prints while it trains: the metrics of train_apg and
    their average by cleanup.

    Simplifications: arithmetic is exact; the parameters and the optimiser's step are abstract; the
    time, epoch and group that are printed in front of the metrics are left out. *)
From Verif Require Export Gibbs Resamplers.
Close Scope R_scope.
Open Scope nat_scope.

(** numbers that may be -inf: sum, mean, quotient by a positive number *)
Definition eadd (x y : ereal) : ereal := match x, y with Fin a, Fin b => Fin (a + b)%R | _, _ => NInf end.
Definition esum (l : list ereal) : ereal := fold_right eadd (Fin 0) l.
Definition ediv (x : ereal) (n : nat) : ereal := match x with Fin a => Fin (a / INR n)%R | NInf => NInf end.
Definition emean (l : list ereal) : ereal := ediv (esum l) (length l).
(** the entries of an array *)
Definition entries (a : arr) : list ereal := map (at_ a) (indices (shape a)).
(** combinators.metrics.effective_sample_size with sample_dims = 0: one number for each fiber
    (/repo/combinators/metrics.py:20-23) *)
Definition ess_array (a : arr) : arr := mkArr (tl (shape a)) (fun b => Fin (effective_sample_size (fiber0 a b))).

(** dict(ess=., log_p=., loss=.), /repo/experiments/apgs/main.py:74 *)
Record metrics : Type := mkMetrics { m_ess : ereal; m_log_p : ereal; m_loss : ereal }.
Definition metrics0 : metrics := mkMetrics (Fin 0) (Fin 0) (Fin 0).
(** the three [+=], /repo/experiments/apgs/main.py:97-111 *)
Definition add_metrics (m n : metrics) : metrics :=
  mkMetrics (eadd (m_ess m) (m_ess n)) (eadd (m_log_p m) (m_log_p n)) (eadd (m_loss m) (m_loss n)).
(** cleanup: [v / num_batches] of each, /repo/experiments/apgs/main.py:161-173 *)
Definition cleanup (m : metrics) (num_batches : nat) : metrics :=
  mkMetrics (ediv (m_ess m) num_batches) (ediv (m_log_p m) num_batches) (ediv (m_loss m) num_batches).

Section Report.
  Context {L : lib} (W : array_view L).
  Notation T := (T L). Notation out := (out L).

  (** detached_mean, /repo/experiments/apgs/main.py:63 *)
  Definition detached_mean (x : T) : ereal := emean (entries (to_arr W (detach L x))).
  (** what one batch adds to the metrics, /repo/experiments/apgs/main.py:97-111.  [out.lw] is an
      attribute that only Propose sets; [.item()] raises unless there is one element. *)
  Definition batch_metrics (num_sweeps : nat) (o : out) : res metrics :=
    rbind (if 0 <? num_sweeps
           then match out_px o with
                | None => Err AttributeError
                | Some px => Ok (emean (entries (ess_array (to_arr W (detach L (px_lw px))))))
                end
           else Ok (Fin 0)) (fun ess =>
    rbind (log_joint (VInt 0) (VInt 1) (VBool false) (dkeys (out_trace o)) (out_trace o)) (fun log_p =>
    match out_loss o with
    | None => Err AttributeError
    | Some l =>
        match entries (to_arr W (detach L l)) with
        | [x] => Ok (mkMetrics ess (detached_mean log_p) x)
        | _ => Err ValueError
        end
    end)).

  (** [P]: the parameters of the networks; [step]: zero_grad, backward and optimizer.step() *)
  Context {P : Type} (net : P -> nets L) (step : P -> out -> res P).
  Context (wmean : T -> T -> T) (node_sum : T -> T) (rs : resampler L) (num_sweeps T_ : nat).
  Definition apg_kwargs : dict (pyval T) := [("sample_dims", VInt 0); ("batch_dim", VInt 1); ("reparameterized", VBool false)].
  (** the call of the sampler, /repo/experiments/apgs/main.py:88-93 *)
  Definition apg_call (p : P) (frames : T) : M L out :=
    run (gibbs_sweeps L (net p) wmean node_sum rs num_sweeps T_) (VDict [("frames", VTensor frames)]) apg_kwargs.
  (** the loop over the batches of a file, /repo/experiments/apgs/main.py:83-126.  [smoke]: the number
      of iterations of a smoke test; the flag tells whether it ended the loop. *)
  Fixpoint train_file (smoke : option nat) (p : P) (counter : nat) (m : metrics) (frames : list T) (s : st L)
      : stree L (res (metrics * P * nat * bool) * st L) :=
    match frames with
    | [] => Leaf (Ok (m, p, counter, false), s)
    | f :: frames' =>
        tbind (apg_call p f s) (fun x =>
        match x with
        | (Err e, s') => Leaf (Err e, s')
        | (Ok o, s') =>
            match rbind (step p o) (fun p' => rmap (pair p') (batch_metrics num_sweeps o)) with
            | Err e => Leaf (Err e, s')
            | Ok (p', m1) =>
                let counter := S counter in
                if (match smoke with Some k => k <=? counter | None => false end)
                then Leaf (Ok (add_metrics m m1, p', counter, true), s')
                else train_file smoke p' counter (add_metrics m m1) frames' s'
            end
        end)
    end.
  (** the metrics printed for a file, /repo/experiments/apgs/main.py:74,83-133: by the smoke test when
      it ends in this file, otherwise after its last batch unless this is a smoke test *)
  Definition file_report (smoke : option nat) (p : P) (counter : nat) (frames : list T) (s : st L)
      : stree L (res (option metrics * P * nat * bool) * st L) :=
    tbind (train_file smoke p counter metrics0 frames s) (fun x =>
    match x with
    | (Err e, s') => Leaf (Err e, s')
    | (Ok (m, p', counter', ended), s') =>
        Leaf (Ok ((if ended then Some (cleanup m (length frames)) else
                   match smoke with None => Some (cleanup m (length frames)) | Some _ => None end), p', counter', ended), s')
    end).
End Report.
