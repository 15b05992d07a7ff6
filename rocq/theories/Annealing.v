(** Model of /repo/experiments/annealing: the programs of models.py, vsmc.py, stl_trace of
    objectives.py, the statistics of utils.py.  (The tempered path and the objectives over the
    reals are in Tempering.v and Objectives.v.) *)
From Verif Require Export Inference Utils.

(** [f"g{k}"] and ["g{}".format(ix)], /repo/experiments/annealing/models.py:257,277-278,
    /repo/experiments/annealing/objectives.py:55-57 *)
Definition gname (k : nat) : string := ("g" ++ show k)%string.
Definition gname_z (z : Z) : string :=
  if (z <? 0)%Z then ("g-" ++ show (Z.to_nat (- z)))%string else gname (Z.to_nat z).

(** Python [a in b] on strings: [a] is a substring of [b]. *)
Fixpoint starts (a b : string) : bool :=
  match a, b with
  | EmptyString, _ => true
  | String x a', String y b' => Ascii.eqb x y && starts a' b'
  | String _ _, EmptyString => false
  end.
Fixpoint substr (a b : string) : bool :=
  starts a b || match b with EmptyString => false | String _ b' => substr a b' end.

Section Annealing.
  Context (L : lib).
  Notation T := (T L). Notation D := (D L). Notation pyval := (pyval T).
  Notation trace := (trace L). Notation rv := (rv L). Notation out := (out L). Notation inf := (inf L).

  (** Density.model, /repo/experiments/annealing/models.py:73-83 *)
  Definition density_model (name : string) (f : T -> T) (c : pyval) (kws : dict pyval) : model L :=
    MCond (fun cond =>
      match (match cond with Some ct => dget name ct | None => None end) with
      | None => MRaise AssertionError
      | Some node =>
          let v := rv_value node in
          MInject name (mkRV (Improper f) v (f v) REUSED true true) (MRet (VDict [(name, VTensor v)]))
      end).
  Definition density_prog (oid : nat) (name : string) (f : T -> T) : inf :=
    IProg oid (mkSig ["self"; "trace"; "c"] [] false) (density_model name f).

  (** Distribution.model, /repo/experiments/annealing/models.py:101-115 *)
  Definition distribution_model (name : string) (d : D) (rep : bool) (c : pyval) (kws : dict pyval) : model L :=
    MCond (fun cond =>
      maybe_sample cond (kwarg "sample_shape" (VTup [VInt 1; VInt 1]) kws) (Some rep) true d name (fun v p _ =>
        MInject name (mkRV (Proper d) v (logp L d v) p rep true) (MRet (VDict [(name, VTensor v)])))).
  Definition distribution_prog (oid : nat) (name : string) (d : D) (rep : bool) : inf :=
    IProg oid (mkSig ["self"; "trace"; "c"; "sample_shape"] [] false) (distribution_model name d rep).

  (** ConditionalMultivariateNormal.model, /repo/experiments/annealing/models.py:151-162.
      [net x] is the multivariate normal whose moments the network computes from [x]. *)
  Definition kernel_model (from to : string) (net : T -> D) (rep : bool) (c : pyval) (kws : dict pyval) : model L :=
    match c with
    | VDict d =>
        match dget from d with
        | None => MRaise KeyError
        | Some (VTensor x) => MVar to (net x) None rep (fun v => MRet (VDict [(to, VTensor v)]))
        | Some _ => MRaise TypeError
        end
    | _ => MRaise TypeError
    end.
  Definition kernel_prog (oid : nat) (from to : string) (net : T -> D) (rep : bool) : inf :=
    IProg oid (mkSig ["self"; "trace"; "c"] [] false) (kernel_model from to net rep).

  (** _eval_detached, /repo/experiments/annealing/objectives.py:36-48.  [detach_dist] rebuilds
      the distribution from its detached parameters.  The third positional argument of
      RandomVariable is its provenance: [rv.reparameterized] lands there, a value that is none
      of the Provenance members, modelled as SAMPLED; the reparameterized flag takes its
      default. *)
  Definition eval_detached (detach_dist : D -> D) (r : rv) : res rv :=
    match rv_den r with
    | Proper d =>
        let d' := detach_dist d in
        let r' := mkRV (Proper d') (rv_value r) (logp L d' (rv_value r)) SAMPLED true true in
        if tensor_equal L (rv_logp r) (rv_logp r') then Ok r' else Err AssertionError
    | _ => Err ValueError
    end.

  (** stl_trace, /repo/experiments/annealing/objectives.py:51-59.  exclude_nodes is a string, so
      the membership test of copytraces is a substring test. *)
  Definition stl_trace (detach_dist : D -> D) (tr : trace) (ix : Z) : res trace :=
    let name := gname_z (ix + 1) in
    rbind (copytraces (fun k => substr k name) NoOverlaps [tr]) (fun t =>
    match dget name tr with
    | None => Err KeyError
    | Some r => rbind (eval_detached detach_dist r) (fun r' => Ok (dset name r' t))
    end).
  Definition stl_transf (detach_dist : D -> D) : transf L :=
    mkTF (mkSig ["q_out_trace"; "ix"] [] false) (fun tr kws =>
      match kwarg "ix" VNone kws with
      | VInt z => stl_trace detach_dist tr z
      | VBool b => stl_trace detach_dist tr (if b then 1 else 0)
      | _ => Err TypeError
      end).

  (** vsmc, /repo/experiments/annealing/vsmc.py:18-32.  [avo]: [loss_fn.__name__ == "nvo_avo"];
      [rs]: the default resampler object of Resample.  The combinator objects created by step
      [k] get the identities [base + 4 k + 0..3]; [n]: [len(forwards)]. *)
  Definition vsmc_step (detach_dist : D -> D) (loss_fn : out -> res T) (avo resample : bool) (rs : resampler L)
    (base n k : nat) (fwd rev p q : inf) : inf :=
    let id := base + 4 * k in
    let q' :=
      IPropose (id + 2)
        (IExtend id p rev (mkOpts default_loss None VNone false))
        (ICompose (id + 1) fwd q (mkOpts default_loss None VNone true))
        (mkOpts (fun o loss => rmap (fun l => tadd L l loss) (loss_fn o)) None (VInt (Z.of_nat k)) true)
        (if avo then None else Some (stl_transf detach_dist))
        false in
    if resample && (k <? n - 1)%nat then IResample (id + 3) q' VNone None rs false else q'.
  Fixpoint vsmc_loop (detach_dist : D -> D) (loss_fn : out -> res T) (avo resample : bool) (rs : resampler L)
    (base n k : nat) (steps : list (inf * (inf * inf))) (q : inf) : inf :=
    match steps with
    | [] => q
    | (fwd, (rev, p)) :: rest =>
        vsmc_loop detach_dist loss_fn avo resample rs base n (S k) rest
          (vsmc_step detach_dist loss_fn avo resample rs base n k fwd rev p q)
    end.
  Definition vsmc (detach_dist : D -> D) (base : nat) (targets forwards reverses : list inf)
    (loss_fn : out -> res T) (avo resample : bool) (rs : resampler L) : res inf :=
    match targets with
    | [] => Err IndexError
    | t0 :: ts =>
        Ok (vsmc_loop detach_dist loss_fn avo resample rs base (length forwards) 0
              (combine forwards (combine reverses ts)) t0)
    end.

  (** traverse_proposals, /repo/experiments/annealing/utils.py:24-42.  [Condition] is not
      defined in that module: evaluating it raises NameError. *)
  Definition valid_inf (o : out) : bool :=
    match out_type o with TyCompose | TyPropose | TyResample => true | _ => false end.
  Fixpoint traverse_proposals {A} (fn : out -> res A) (o : out) (memo : list A) {struct o} : res (list A) :=
    match o with
    | mkOut _ _ _ ty _ _ _ _ subs =>
        let visit :=
          fix visit (k : string) (l : list (string * out)) (memo : res (list A)) : res (list A) :=
            match l with
            | [] => Err AttributeError
            | (k', o') :: l' =>
                if String.eqb k k' then rbind memo (traverse_proposals fn o') else visit k l' memo
            end in
        match ty with
        | TyPropose => visit "q_out" subs (rmap (fun x => x :: memo) (fn o))
        | TyExtend => Err ValueError
        | TyCompose =>
            match dget "q1_out" subs, dget "q2_out" subs with
            | Some o1, Some o2 =>
                if xorb (valid_inf o1) (valid_inf o2)
                then visit (if valid_inf o1 then "q1_out" else "q2_out") subs (Ok memo)
                else Ok memo
            | _, _ => Err AttributeError
            end
        | TyResample => visit "q_out" subs (Ok memo)
        | TyProgram => Err NameError
        end
    end.

  (** get_stats, /repo/experiments/annealing/utils.py:45-61: the tuple of each proposal, then
      [zip( *ret)] unpacked into five variables (ValueError when [ret] is empty).  [.detach()]
      on a Python float is an AttributeError. *)
  Record stats : Type := mkStats {
    st_lw : list T; st_loss : list T; st_proposal : list trace; st_target : list trace; st_out : list out }.
  Definition detach_attr (x : T) : res T := if is_tensor L x then Ok (detach L x) else Err AttributeError.
  Definition stats_entry (o : out) : res (T * T * trace * trace * out) :=
    rbind (detach_attr (out_lw o)) (fun lw =>
    match out_loss o with
    | None => Err AttributeError
    | Some l =>
        rbind (detach_attr l) (fun loss =>
        match out_px o with
        | None => Err AttributeError
        | Some px => Ok (lw, loss, px_proposal_trace px, px_target_trace px, o)
        end)
    end).
  Definition get_stats (o : out) : res stats :=
    rbind (traverse_proposals stats_entry o []) (fun ret =>
    match ret with
    | [] => Err ValueError
    | _ => Ok (mkStats (map (fun x => fst (fst (fst (fst x)))) ret) (map (fun x => snd (fst (fst (fst x)))) ret)
                 (map (fun x => snd (fst (fst x))) ret) (map (fun x => snd (fst x)) ret) (map snd ret))
    end).
End Annealing.
Arguments density_model {L}. Arguments density_prog {L}. Arguments distribution_model {L}. Arguments distribution_prog {L}.
Arguments kernel_model {L}. Arguments kernel_prog {L}. Arguments eval_detached {L}. Arguments stl_trace {L}.
Arguments stl_transf {L}. Arguments vsmc_step {L}. Arguments vsmc_loop {L}. Arguments vsmc {L}. Arguments valid_inf {L}.
Arguments traverse_proposals {L A}. Arguments detach_attr {L}. Arguments stats_entry {L}. Arguments get_stats {L}.
Arguments mkStats {L}. Arguments st_lw {L}. Arguments st_loss {L}. Arguments st_proposal {L}. Arguments st_target {L}. Arguments st_out {L}.
