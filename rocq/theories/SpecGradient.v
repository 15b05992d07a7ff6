(** Specification for property C63: which parameters the gradients of a result can reach.

    A [tape] says, of a tensor and of a distribution, in which set of parameters the leaves of its
    autograd graph lie: [dep X t] means that differentiating [t] gives nothing for a parameter
    outside [X].  (Prop_Gradient.v has the instance in which tensors are functions of the
    parameters and [dep] is about partial derivatives.) *)
From Verif Require Export SpecTotal SpecGibbs SpecAnnealing.
Open Scope nat_scope.

Record tape (L : lib) : Type := mkTape {
  param : Type;
  dep : (param -> Prop) -> T L -> Prop;
  ddep : (param -> Prop) -> D L -> Prop }.
Arguments mkTape {L}. Arguments param {L}. Arguments dep {L}. Arguments ddep {L}.

(** What autograd does: sums, differences and log-densities join graphs, detach cuts them. *)
Record tape_laws {L : lib} (G : tape L) : Prop := mkTapeLaws {
  tp_mono : forall (X Y : param G -> Prop) t, (forall i, X i -> Y i) -> dep G X t -> dep G Y t;
  tp_dmono : forall (X Y : param G -> Prop) d, (forall i, X i -> Y i) -> ddep G X d -> ddep G Y d;
  tp_zero : forall X, dep G X (tzero L);
  tp_add : forall X a b, dep G X a -> dep G X b -> dep G X (tadd L a b);
  tp_sub : forall X a b, dep G X a -> dep G X b -> dep G X (tsub L a b);
  tp_detach : forall X a, dep G X (detach L a);
  tp_to_tensor : forall X a, dep G X a -> dep G X (to_tensor L a);
  tp_bsum : forall X sd bd a, dep G X a -> dep G X (bsum L sd bd a);
  tp_logp : forall X d v, ddep G X d -> dep G X v -> dep G X (logp L d v) }.

Section Gradient.
  Context {L : lib} (G : tape L).
  Notation T := (T L). Notation pyval := (pyval T). Notation trace := (trace L). Notation rv := (rv L).
  Notation out := (out L). Notation inf := (inf L). Notation model := (model L).
  Definition params : Type := param G -> Prop.

  (** ** Draws
      rsample() is differentiable in the parameters of the distribution; sample() and torch.rand()
      return constants. *)
  Definition recorded (d : draw_kind L) (v : T) : Prop :=
    match d with
    | DrawDist d true _ => forall X, ddep G X d -> dep G X v
    | _ => forall X, dep G X v
    end.
  Definition grad_sorts : sorts L := mkSorts L recorded (fun _ => True) (fun _ => True) (fun _ => True) (fun _ => True).
  (** [call m s r s']: some run of [m] in state [s], whose draws are recorded, ends with [r] *)
  Definition gives {A} (m : M L A) (s : st L) (r : A) (s' : st L) : Prop := reaches grad_sorts (m s) (Ok r, s').

  (** ** Nodes: their value and log-density, and their distribution *)
  Definition den_dep (F : params) (r : rv) : Prop :=
    match rv_den r with
    | Proper d => ddep G F d
    | Improper f => forall (X : params) v, (forall i, F i -> X i) -> dep G X v -> dep G X (f v)
    | OtherRV => True
    end.
  Definition node_dep (X F : params) (r : rv) : Prop := dep G X (rv_value r) /\ dep G X (rv_logp r) /\ den_dep F r.
  Definition trace_dep (X F : params) (tr : trace) : Prop := forall a r, In (a, r) tr -> node_dep X F r.
  Definition result_dep (X : params) (o : out) : Prop :=
    trace_dep X X (out_trace o) /\ dep G X (out_lw o) /\ all_tensors (dep G X) (out_output o).
  (** what a Propose stores for its objective *)
  Definition px_dep (X : params) (px : pextras L) : Prop :=
    dep G X (px_lv px) /\ dep G X (px_lw px) /\ trace_dep X X (px_proposal_trace px) /\
    trace_dep X X (px_target_trace px) /\ forall tr, px_forward_trace px = Some tr -> trace_dep X X tr.

  (** Propose detaches an output that is a tensor, and the tensors in an output that is a dict, but
      not those in values inside the dict or in a tuple: outputs are assumed to have none of these. *)
  Definition shallow (v : pyval) : Prop :=
    match v with
    | VTensor _ => True
    | VDict d => forall k x, In (k, x) d -> (exists t, x = VTensor t) \/ no_tensor x
    | v => no_tensor v
    end.

  (** ** User models
      [computes X F m]: given inputs that depend on [X] only, everything [m] computes depends on
      [X] only, and the distributions of its nodes on [F] only. Models that read the global store
      are left out. *)
  Inductive computes (X F : params) : model -> Prop :=
  | computes_ret o : all_tensors (dep G X) o -> shallow o -> computes X F (MRet o)
  | computes_raise e : computes X F (MRaise e)
  | computes_sample a d rep k : ddep G F d -> (forall v, dep G X v -> computes X F (k v)) -> computes X F (MVar a d None rep k)
  | computes_given a d v p rep k : ddep G F d -> dep G X v -> computes X F (k v) -> computes X F (MVar a d (Some (v, p)) rep k)
  | computes_inject a r k : node_dep X F r -> computes X F k -> computes X F (MInject a r k)
  | computes_cond k : (forall cond, (forall ct, cond = Some ct -> trace_dep X X ct) -> computes X F (k cond)) -> computes X F (MCond k)
  | computes_trace k : (forall tr, trace_dep X F tr -> computes X F (k tr)) -> computes X F (MTrace k)
  | computes_draw d rep sh k : ddep G X d -> (forall v, dep G X v -> computes X F (k v)) -> computes X F (MDraw d rep sh k)
  | computes_set key x k : computes X F k -> computes X F (MSetStore key x k).

  (** ** Inference programs
      [par i]: the parameters of the program object [i] (its networks). [flat i]: the distributions
      of its nodes do not depend on its argument nor on other random variables. *)
  Context (par : nat -> params) (flat : nat -> bool).
  (** the parameters of the programs [l], and [A] *)
  Definition within (A : params) (l : list nat) : params := fun x => A x \/ exists i, In i l /\ par i x.
  Definition no_param : params := fun _ => False.

  (** What a Propose keeps of its target: of an Extend, the extended program. *)
  Definition kept_of (t : inf) : inf := match t with IExtend _ p _ _ => p | _ => t end.

  (** The programs whose parameters the tensors of a result may depend on.  Propose (unless
      no_reruns) detaches all values and evaluates the target's densities again: if these are flat,
      nothing but the parameters of the target is left. *)
  Fixpoint exposed (t : inf) : list nat :=
    match t with
    | IProg i _ _ => [i]
    | IResample _ q _ _ _ _ => exposed q
    | IExtend _ p f _ => exposed p ++ exposed f
    | ICompose _ q2 q1 _ => exposed q2 ++ exposed q1
    | IPropose _ p q _ _ nr =>
        let kept := match p with IExtend _ p' _ _ => exposed p' | _ => exposed p end in
        if negb nr && forallb flat kept then kept else exposed p ++ exposed q
    end.

  (** The programs of one level: of a Propose, what its objective may be differentiated by. *)
  Definition level (t : inf) : list nat :=
    match t with IPropose _ p q _ _ _ => exposed p ++ exposed q | _ => exposed t end.

  Definition resampler_tracks (rs : resampler L) : Prop := forall X F tr lw kws items lw2,
    trace_dep X F tr -> dep G X lw -> reaches grad_sorts (rs_call rs tr lw kws) (Ok (items, lw2)) ->
    trace_dep X F items /\ dep G X lw2.
  Definition transf_tracks (tf : option (transf L)) : Prop := forall f X tr kws qt, tf = Some f ->
    trace_dep X X tr -> tf_call f tr kws = Ok qt -> trace_dep X X qt.
  Definition kwargs_dep (A : params) (kws : dict pyval) : Prop := forall k v, In (k, v) kws -> all_tensors (dep G A) v.

  (** the programs do what [par] and [flat] say; indices hold no tensors *)
  Fixpoint tracked (t : inf) : Prop :=
    match t with
    | IProg i sg m => forall A c kws, all_tensors (dep G A) c -> kwargs_dep A kws ->
        computes (within A [i]) (if flat i then par i else within A [i]) (m c kws)
    | IResample _ q ix _ rs _ => tracked q /\ resampler_tracks rs /\ no_tensor ix
    | IExtend _ p f o => tracked p /\ tracked f /\ no_tensor (in_ix o)
    | ICompose _ q2 q1 o => tracked q2 /\ tracked q1 /\ no_tensor (in_ix o)
    | IPropose _ p q o tf _ => tracked p /\ tracked q /\ transf_tracks tf /\ no_tensor (in_ix o)
    end.

  (** ** Losses
      Each Propose adds a term to the loss of its proposal; the other combinators pass it on. *)
  Definition tracks_term (g : out -> res T) : Prop := forall X r t, result_dep X r -> (forall px, out_px r = Some px -> px_dep X px) -> g r = Ok t -> dep G X t.
  Definition no_loss0 (l0 : option T) : Prop := forall l, l0 = Some l -> dep G no_param l.
  Fixpoint trained (t : inf) : Prop :=
    match t with
    | IProg _ _ _ => True
    | IResample _ q _ l0 _ _ => trained q /\ no_loss0 l0
    | IExtend _ p _ o => trained p /\ no_loss0 (in_loss0 o) /\ forall r l, in_loss o r l = Ok l
    | ICompose _ _ q1 o => trained q1 /\ no_loss0 (in_loss0 o) /\ forall r l, in_loss o r l = Ok l
    | IPropose _ _ q o _ _ => trained q /\ no_loss0 (in_loss0 o) /\
        exists g, tracks_term g /\ forall r l, in_loss o r l = rmap (fun t => tadd L t l) (g r)
    end.
  (** the levels whose terms the loss adds up, outermost first *)
  Fixpoint levels (t : inf) : list (list nat) :=
    match t with
    | IProg _ _ _ => []
    | IResample _ q _ _ _ _ => levels q
    | IExtend _ p _ _ => levels p
    | ICompose _ _ q1 _ => levels q1
    | IPropose _ p q _ _ _ => (exposed p ++ exposed q) :: levels q
    end.
  (** [l] is a constant plus one term per level, each depending on the parameters of its level *)
  Definition sum_of_levels (A : params) (ls : list (list nat)) (l : T) : Prop := exists base ts,
    dep G no_param base /\ Forall2 (fun ids t => dep G (within A ids) t) ls ts /\
    l = fold_right (tadd L) base ts.

  (** nothing is conditioned *)
  Definition fresh_call (A : params) (c : pyval) (kws : dict pyval) (s : st L) : Prop :=
    plain_call kws /\ clean s /\ all_tensors (dep G A) c /\ kwargs_dep A kws.
End Gradient.

(** ** The annealing sampler: an annealing problem whose distributions and networks depend on the
    parameters of their own object (and a network's distribution on its argument). *)
Section Problem.
  Context {L : lib} (G : tape L) (par : nat -> params G) (pb : problem L).
  Record problem_tracked : Prop := mkProblemTracked {
    pt_initial : ddep G (par (pb_oid_t pb 0)) (pb_d0 pb);
    pt_target : forall k, match pb_target pb k with
      | TDist d _ => ddep G (par (pb_oid_t pb k)) d
      | TDens f => forall (X : params G) v, (forall i, par (pb_oid_t pb k) i -> X i) -> dep G X v -> dep G X (f v)
      end;
    pt_forward : forall k (X : params G) v, (forall i, par (pb_oid_f pb k) i -> X i) -> dep G X v -> ddep G X (pb_fwd pb k v);
    pt_reverse : forall k (X : params G) v, (forall i, par (pb_oid_r pb k) i -> X i) -> dep G X v -> ddep G X (pb_rev pb k v);
    pt_apart : forall j k, pb_oid_t pb j <> pb_oid_f pb k /\ pb_oid_t pb j <> pb_oid_r pb k }.
  (** the programs of step [k] *)
  Definition step_programs (k : nat) : list nat := [pb_oid_t pb (S k); pb_oid_r pb k; pb_oid_f pb k; pb_oid_t pb k].
End Problem.
