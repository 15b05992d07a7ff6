(** Model of /repo/combinators/trace/utils.py: copytraces, rerun_with_detached_values,
    trace_eq, valeq.  ([maybe_sample] is in Program.v, next to the sampling monad.) *)
From Verif Require Export Lib.

(** /repo/combinators/trace/utils.py:214-218 *)
Inductive write_mode : Type := LastWriteWins | FirstWriteWins | NoOverlaps.

Section TraceUtils.
  Context (L : lib).
  Notation trace := (trace L).
  Notation rv := (rv L).

  (** Body of the inner loop, /repo/combinators/trace/utils.py:230-243, for one item
      [(k, r)].  [newtrace._inject] overwrites (it is called after the explicit write in
      the LastWriteWins branch, and tests/test_resamplers.py:76 re-injects names).
      [excl] is the membership test of [exclude_nodes]: a set in the library, a *string*
      in /repo/experiments/annealing/objectives.py:55. *)
  Definition copy_item (excl : string -> bool) (mode : write_mode) (k : string) (r : rv)
    (acc : trace) : res trace :=
    if excl k then Ok acc
    else if dmem k acc then
      match mode with
      | LastWriteWins => Ok (dset k r (dset k r acc))
      | FirstWriteWins => Ok acc
      | NoOverlaps => Err RuntimeError
      end
    else Ok (dset k r acc).

  (** the inner loop over one trace *)
  Fixpoint copy_items (excl : string -> bool) (mode : write_mode) (tr : trace) (acc : trace) : res trace :=
    match tr with
    | [] => Ok acc
    | (k, r) :: tr' => rbind (copy_item excl mode k r acc) (copy_items excl mode tr')
    end.

  (** the outer loop over the traces *)
  Fixpoint copy_all (excl : string -> bool) (mode : write_mode) (trs : list trace) (acc : trace) : res trace :=
    match trs with
    | [] => Ok acc
    | tr :: trs' => rbind (copy_items excl mode tr acc) (copy_all excl mode trs')
    end.

  (** copytraces, /repo/combinators/trace/utils.py:221-244 *)
  Definition copytraces (excl : string -> bool) (mode : write_mode) (trs : list trace) : res trace :=
    copy_all excl mode trs [].
  Definition no_excl : string -> bool := fun _ => false.

  (** rerun_rv, /repo/combinators/trace/utils.py:254-270.  The constructor calls pass no
      log_prob, so it is recomputed, and no resamplable flag, so it takes the default
      True; an ImproperRandomVariable is not passed a reparameterized flag, modelled as
      True (probtorch treats improper nodes as reparameterizable). *)
  Definition rerun_rv (r : rv) : res rv :=
    let value := detach L (rv_value r) in
    match rv_den r with
    | Proper d => Ok (mkRV (Proper d) value (logp L d value) (rv_prov r) (rv_rep r) true)
    | Improper f => Ok (mkRV (Improper f) value (f value) (rv_prov r) true true)
    | OtherRV => Err NotImplementedError
    end.

  (** the loop of /repo/combinators/trace/utils.py:272-275 *)
  Fixpoint rerun_items (tr acc : trace) : res trace :=
    match tr with
    | [] => Ok acc
    | (k, r) :: tr' => rbind (rerun_rv r) (fun r' => rerun_items tr' (dset k r' acc))
    end.
  Definition rerun_with_detached_values (tr : trace) : res trace := rerun_items tr [].

  (** trace_eq, /repo/combinators/trace/utils.py:210-211 *)
  Definition trace_eq (t0 t1 : trace) (name : string) : bool :=
    match dget name t0, dget name t1 with
    | Some r0, Some r1 => tensor_equal L (rv_value r0) (rv_value r1)
    | _, _ => false
    end.

  (** The [nodes] argument of valeq, /repo/combinators/trace/utils.py:84: None, a dict of
      names, or a list of pairs of names. *)
  Inductive nodes_arg : Type :=
  | NodesNone
  | NodesDict (names : list string)
  | NodesPairs (ps : list (string * string)).

  (** valeq, /repo/combinators/trace/utils.py:81-132; [check_exist] is accepted and, as in
      the source, never read.  A non-empty list of pairs raises NotImplementedError
      (99-105); an empty list selects no name. *)
  Definition valeq (t1 t2 : trace) (nodes : nodes_arg) (check_exist strict : bool) : res bool :=
    let t1nodes := dkeys t1 in
    let t2nodes := dkeys t2 in
    let go (ns : list string) : res bool :=
      if negb (forallb (fun n => dmem n t1 && dmem n t2) ns) then Err PlainException
      else if (0 <? length (filter (fun n => negb (trace_eq t1 t2 n)) ns))%nat then Err PlainException
      else Ok true in
    match nodes with
    | NodesNone => go (if strict then sunion t1nodes t2nodes else sinter t1nodes t2nodes)
    | NodesPairs (_ :: _) => Err NotImplementedError
    | NodesPairs [] => go []
    | NodesDict ns => go ns
    end.
End TraceUtils.
Arguments copytraces {L}. Arguments copy_all {L}. Arguments copy_items {L}. Arguments copy_item {L}.
Arguments rerun_with_detached_values {L}. Arguments rerun_items {L}. Arguments rerun_rv {L}.
Arguments trace_eq {L}. Arguments valeq {L}.
