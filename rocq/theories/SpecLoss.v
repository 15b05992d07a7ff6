(** Specifications for C19_same_run and C75: the loss of a result, read off the intermediate results
    that a run with [_debug] leaves in it. *)
From Verif Require Export Spec SpecAnnealing.

(** [passed l0 r]: the loss that a combinator with initial loss [l0] hands to its loss function when
    the program below it returned [r] *)
Definition passed {L : lib} (l0 : option (T L)) (r : out L) : T L :=
  match out_loss r with Some l => l | None => match l0 with Some l => l | None => tzero L end end.
(** [tracks t r]: [r] is a result of [t] that reports its kind, the index of [t] if it has one, and a
    loss computed by the loss function of [t] from [r] and the loss of the intermediate result on the
    proposal side, which it holds and which is accounted for in the same way. *)
Fixpoint tracks {L : lib} (t : inf L) (r : out L) : Prop :=
  match t with
  | IProg _ _ _ => out_loss r = None /\ out_type r = TyProgram
  | IResample _ q ix l0 _ _ => exists r1,
      get_sub "q_out" r = Some r1 /\ tracks q r1 /\ out_type r = TyResample /\ (is_none ix = false -> out_ix r = Some ix) /\
      out_loss r = Some (passed l0 r1)
  | IExtend _ p _ o => exists r1,
      get_sub "p_out" r = Some r1 /\ tracks p r1 /\ out_type r = TyExtend /\ (is_none (in_ix o) = false -> out_ix r = Some (in_ix o)) /\
      exists l, in_loss o (before_loss r) (passed (in_loss0 o) r1) = Ok l /\ out_loss r = Some l
  | ICompose _ _ q1 o => exists r1,
      get_sub "q1_out" r = Some r1 /\ tracks q1 r1 /\ out_type r = TyCompose /\ (is_none (in_ix o) = false -> out_ix r = Some (in_ix o)) /\
      exists l, in_loss o (before_loss r) (passed (in_loss0 o) r1) = Ok l /\ out_loss r = Some l
  | IPropose _ _ q o _ _ => exists r1,
      get_sub "q_out" r = Some r1 /\ tracks q r1 /\ out_type r = TyPropose /\ (is_none (in_ix o) = false -> out_ix r = Some (in_ix o)) /\
      exists l, in_loss o (before_loss r) (passed (in_loss0 o) r1) = Ok l /\ out_loss r = Some l
  end.

(** the results of the proposal steps inside a result, innermost first *)
Inductive proposals {L : lib} : out L -> list (out L) -> Prop :=
| at_program o : out_type o = TyProgram -> proposals o []
| at_propose o q l : out_type o = TyPropose -> get_sub "q_out" o = Some q -> proposals q l -> proposals o (l ++ [o])
| at_compose o q l : out_type o = TyCompose -> get_sub "q1_out" o = Some q -> proposals q l -> proposals o l
| at_resample o q l : out_type o = TyResample -> get_sub "q_out" o = Some q -> proposals q l -> proposals o l.
(** the kind of the result that a proposal step continues from: the first component of its proposal *)
Definition continues {L : lib} (o : out L) (ty : otype) : Prop :=
  exists q q1, get_sub "q_out" o = Some q /\ get_sub "q1_out" q = Some q1 /\ out_type q1 = ty.
(** sums as the code adds them: every step adds the losses of the steps before it to its own *)
Definition added {L : lib} (ls : list (T L)) : T L := fold_left (fun total l => tadd L l total) ls (tzero L).

(** the objectives of the bouncing-digits experiment for the result [x] of a step: [wmean lw y] is the
    average of [-y] under the normalised weights, see Objectives.v *)
Section Apg.
  Context {L : lib} (wmean : T L -> T L -> T L) (node_sum : T L -> T L).
  Definition whole (tr : trace L) : res (T L) := log_joint (VInt 0) (VInt 1) (VBool false) (dkeys tr) tr.
  (** first step: the densities of the whole proposal and of the whole target *)
  Definition is_objective (x : out L) (l : T L) : Prop := exists px log_q log_p,
    out_px x = Some px /\ whole (px_proposal_trace px) = Ok log_q /\ whole (px_target_trace px) = Ok log_p /\
    l = tadd L (wmean (out_lw x) log_q) (wmean (out_lw x) log_p).
  (** later steps: the density of the forward kernel and of the reconstruction of the frames *)
  Definition apg_objective (x : out L) (l : T L) : Prop := exists px fwd key r log_q,
    out_px x = Some px /\ px_forward_trace px = Some fwd /\ whole fwd = Ok log_q /\
    (In "recon" (dkeys (px_target_trace px)) -> key = "recon") /\ dget key (px_target_trace px) = Some r /\
    l = tadd L (wmean (out_lw x) log_q) (wmean (out_lw x) (node_sum (rv_logp r))).
End Apg.

(** ** Transformed proposals *)
(** [transformed sd bd rep dbg tf r]: [r] is the result of a proposal step that charged the density of
    the proposal's trace after the transformation [tf]; [tf] was called on that trace, with those of the
    five keyword arguments that it accepts, the index being the one [r] reports. *)
Definition transformed {L : lib} (sd bd rep dbg : pyval (T L)) (tf : option (transf L)) (r : out L) : Prop :=
  exists q p px ix qt lu,
    get_sub "q_out" r = Some q /\ get_sub "p_out" r = Some p /\ out_px r = Some px /\ out_ix r = Some ix /\ wf_dict (out_trace q) /\
    match tf with
    | None => qt = out_trace q
    | Some f => exists kw res,
        (forall k v, dget k kw = Some v <-> accepts (tf_sig f) k /\
           dget k [("_debug", dbg); ("ix", ix); ("sample_dims", sd); ("batch_dim", bd); ("reparameterized", rep)] = Some v) /\
        tf_call f (out_trace q) kw = Ok res /\ qt = as_trace res
    end /\
    log_joint sd bd rep (px_nodes px) qt = Ok lu /\ px_lv px = tsub L (out_lw p) lu.
