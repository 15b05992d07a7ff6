(** Model of a whole training by train_apg, /repo/experiments/apgs/main.py:66-139: epochs, files, batches,
    with what it leaves behind (the checkpoint, the printed lines) in the order in which it does so.  What
    was done before an exception stays done: the list of events is part of every result, also of an
    exception.

    Simplifications: as in ApgReport.v.  [load e g]: the batches of the file that epoch [e] visits as
    number [g], in the order drawn by randperm, or the exception of torch.load and of the
    assertion on the number of time steps (74-82); which file that is (shuffle, line 69) is part of
    [load].  Training.v models how a file is cut into batches.  Writing the checkpoint (128) is one
    event: it is not modelled that save_models may fail or be interrupted. *)
From Verif Require Export ApgReport.
Open Scope nat_scope.

Inductive event (P : Type) : Type :=
| EvStep (e g b : nat) (p : P)   (* optimizer.step() on batch b of file g in epoch e; the parameters after it *)
| EvSave (e g : nat) (p : P)     (* save_models(models, "cp-" + model_version) *)
| EvPrint (e g : nat) (m : metrics).
Arguments EvStep {P}. Arguments EvSave {P}. Arguments EvPrint {P}.

Section Train.
  Context {L : lib} (W : array_view L) {P : Type} (net : P -> nets L) (step : P -> out L -> res P).
  Context (wmean : T L -> T L -> T L) (node_sum : T L -> T L) (rs : resampler L) (num_sweeps T_ : nat).
  Context (smoke : option nat) (load : nat -> nat -> res (list (T L))).

  (** the loop over the batches, lines 85-126; [n]: num_batches *)
  Fixpoint apg_batches (e g n b : nat) (p : P) (counter : nat) (m : metrics) (frames : list (T L)) (s : st L)
      : stree L (list (event P) * res (P * nat * metrics * bool) * st L) :=
    match frames with
    | [] => Leaf ([], Ok (p, counter, m, false), s)
    | f :: frames' =>
        tbind (apg_call net wmean node_sum rs num_sweeps T_ p f s) (fun x =>
        match x with
        | (Err er, s') => Leaf ([], Err er, s')
        | (Ok o, s') =>
            match step p o with
            | Err er => Leaf ([], Err er, s')
            | Ok p' =>
                match batch_metrics W num_sweeps o with
                | Err er => Leaf ([EvStep e g b p'], Err er, s')
                | Ok m1 =>
                    let m := add_metrics m m1 in
                    let counter := S counter in
                    if (match smoke with Some k => k <=? counter | None => false end)
                    then Leaf ([EvStep e g b p'; EvPrint e g (cleanup m n)], Ok (p', counter, m, true), s')
                    else tbind (apg_batches e g n (S b) p' counter m frames' s')
                           (fun y => let '(l, r, s'') := y in Leaf (EvStep e g b p' :: l, r, s''))
                end
            end
        end)
    end.
  (** the loop over the files, lines 72-133; [n]: how many are left *)
  Fixpoint apg_files (e g n : nat) (p : P) (counter : nat) (s : st L)
      : stree L (list (event P) * res (P * nat * bool) * st L) :=
    match n with
    | 0 => Leaf ([], Ok (p, counter, false), s)
    | S n' =>
        match load e g with
        | Err er => Leaf ([], Err er, s)
        | Ok frames =>
            tbind (apg_batches e g (length frames) 0 p counter metrics0 frames s) (fun y =>
            match y with
            | (l, Err er, s') => Leaf (l, Err er, s')
            | (l, Ok (p', counter', _, true), s') => Leaf (l, Ok (p', counter', true), s')
            | (l, Ok (p', counter', m, false), s') =>
                let l' := l ++ EvSave e g p' :: match smoke with
                                                | None => [EvPrint e g (cleanup m (length frames))]
                                                | Some _ => [] end in
                tbind (apg_files e (S g) n' p' counter' s')
                  (fun z => let '(l2, r, s2) := z in Leaf (l' ++ l2, r, s2))
            end)
        end
    end.
  (** the loop over the epochs, lines 67-133 *)
  Fixpoint apg_epochs (nfiles e n : nat) (p : P) (counter : nat) (s : st L)
      : stree L (list (event P) * res (P * nat * bool) * st L) :=
    match n with
    | 0 => Leaf ([], Ok (p, counter, false), s)
    | S n' =>
        tbind (apg_files e 0 nfiles p counter s) (fun y =>
        match y with
        | (l, Err er, s') => Leaf (l, Err er, s')
        | (l, Ok (p', counter', true), s') => Leaf (l, Ok (p', counter', true), s')
        | (l, Ok (p', counter', false), s') =>
            tbind (apg_epochs nfiles (S e) n' p' counter' s')
              (fun z => let '(l2, r, s2) := z in Leaf (l ++ l2, r, s2))
        end)
    end.
  (** train_apg from line 66 on *)
  Definition apg_train (nfiles epochs : nat) (p : P) (s : st L) : stree L (list (event P) * res P * st L) :=
    tbind (apg_epochs nfiles 0 epochs p 0 s) (fun y =>
    let '(l, r, s') := y in Leaf (l, rmap (fun x => fst (fst x)) r, s')).
End Train.
