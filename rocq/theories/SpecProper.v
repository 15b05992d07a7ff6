(** Specification of proper weighting (property C50): expectations over the random draws of a
    run, and the unnormalised distribution an inference program is meant to represent. *)
From Coq Require Export Reals.
From Verif Require Export RunEq.

(** ** How values are read as probabilities
    [lw x]: the real number a scalar log-density or log-weight stands for.
    [space d]: the sample space a distribution lives on (for example "the integers 0..9").
    [integral k f]: the sum (or integral) of [f] over the sample space [k]. *)
Record measures (L : lib) : Type := mkMeasures {
  lw : T L -> R;
  Sp : Type;
  space : D L -> Sp;
  integral : Sp -> (T L -> R) -> R }.
Arguments lw {L}. Arguments Sp {L}. Arguments space {L}. Arguments integral {L}.

(** Log-densities are scalars that add up like real numbers, values carry no gradient
    history, sums are linear and may be exchanged, distributions are normalised. *)
Record measure_laws {L : lib} (M : measures L) : Prop := mkMeasureLaws {
  lw_zero : lw M (tzero L) = 0%R;
  lw_add : forall x y, lw M (tadd L x y) = (lw M x + lw M y)%R;
  lw_sub : forall x y, lw M (tsub L x y) = (lw M x - lw M y)%R;
  lw_bsum : forall sd bd x, lw M (bsum L sd bd x) = lw M x;
  detach_id : forall x, detach L x = x;
  int_ext : forall k f g, (forall v, f v = g v) -> integral M k f = integral M k g;
  int_scale : forall k c f, integral M k (fun v => (c * f v)%R) = (c * integral M k f)%R;
  int_swap : forall k k' (f : T L -> T L -> R),
    integral M k (fun v => integral M k' (fun w => f v w)) = integral M k' (fun w => integral M k (fun v => f v w));
  normalised : forall d, integral M (space M d) (fun v => exp (lw M (logp L d v))) = 1%R }.

Section Spec.
  Context {L : lib} (M : measures L).
  Notation T := (T L). Notation pyval := (pyval T). Notation model := (model L).

  (** the probability mass (density) of value [v] under [d] *)
  Definition pmass (d : D L) (v : T) : R := exp (lw M (logp L d v)).

  (** The expectation of [f] over all random draws of a run. *)
  Fixpoint expect {A} (t : stree L A) (f : A -> R) : R :=
    match t with
    | Leaf a => f a
    | Draw (DrawDist d _ _) k => integral M (space M d) (fun v => (pmass d v * expect (k v) f)%R)
    | Draw DrawRand _ => 0%R
    end.

  (** The sum of [h] over the possible executions of a user model: a sample statement sums over
      its sample space, every statement multiplies in its density.  [h] sees the values of
      all variables by address, and the returned value. *)
  Fixpoint density_sum (m : model) (h : list (string * T) -> pyval -> R) : R :=
    match m with
    | MRet o => h [] o
    | MVar a d None _ k =>
        integral M (space M d) (fun v => (pmass d v * density_sum (k v) (fun l o => h ((a, v) :: l) o))%R)
    | MVar a d (Some (v, _)) _ k => (pmass d v * density_sum (k v) (fun l o => h ((a, v) :: l) o))%R
    | _ => 0%R
    end.

  (** run one model, then another on its result *)
  Fixpoint mseq (m : model) (f : pyval -> model) : model :=
    match m with
    | MRet o => f o
    | MRaise e => MRaise e
    | MVar a d v rep k => MVar a d v rep (fun x => mseq (k x) f)
    | MInject a r k => MInject a r (mseq k f)
    | MCond k => MCond (fun x => mseq (k x) f)
    | MTrace k => MTrace (fun x => mseq (k x) f)
    | MDraw d rep sh k => MDraw d rep sh (fun x => mseq (k x) f)
    | MGetStore key k => MGetStore key (fun x => mseq (k x) f)
    | MSetStore key v k => MSetStore key v (mseq k f)
    end.

  (** The model an inference program targets, as one user model: a Program targets its own
      model; Compose and Extend run one after the other; Propose targets its target, without
      the last extension. *)
  Fixpoint target (t : inf L) (c : pyval) (kws : dict pyval) : model :=
    match t with
    | IProg _ sg m => m c (prog_kwargs sg kws)
    | IResample _ q ix _ _ _ => target q c (sub_kwargs ix kws)
    | IExtend _ p f o =>
        mseq (target p c (sub_kwargs (in_ix o) kws)) (fun c1 => target f c1 (sub_kwargs (in_ix o) kws))
    | ICompose _ q2 q1 o =>
        mseq (target q1 c (sub_kwargs (in_ix o) kws)) (fun c1 => target q2 c1 (sub_kwargs (in_ix o) kws))
    | IPropose _ p q o _ _ =>
        match p with
        | IExtend _ p' _ o' => target p' c (sub_kwargs (in_ix o') (sub_kwargs (in_ix o) kws))
        | _ => target p c (sub_kwargs (in_ix o) kws)
        end
    end.

  (** ** Which programs are covered *)
  (** A model made of sample and observe statements only; the distributions used at an
      address all live on the sample space [sp] of that address. *)
  Inductive pure (sp : string -> Sp M) : model -> Prop :=
  | pure_ret o : pure sp (MRet o)
  | pure_sample a d rep k : space M d = sp a -> (forall v, pure sp (k v)) -> pure sp (MVar a d None rep k)
  | pure_observe a d v rep k : (forall v, pure sp (k v)) -> pure sp (MVar a d (Some (v, None)) rep k).

  (** [samples m a]: some execution of [m] samples a variable at address [a];
      [observes m a]: ... observes one; [returns_value m o]: some execution returns [o] *)
  Inductive samples : model -> string -> Prop :=
  | smp_here a d rep k : samples (MVar a d None rep k) a
  | smp_next a d v rep k x b : samples (k x) b -> samples (MVar a d v rep k) b.
  Inductive observes : model -> string -> Prop :=
  | obs_here a d v rep k : observes (MVar a d (Some v) rep k) a
  | obs_next a d v rep k x b : observes (k x) b -> observes (MVar a d v rep k) b.
  Inductive returns_value : model -> pyval -> Prop :=
  | rv_ret o : returns_value (MRet o) o
  | rv_next a d v rep k x o : returns_value (k x) o -> returns_value (MVar a d v rep k) o.

  (** [always C left m]: every execution of [m] samples each address of [left] exactly once,
      and uses no other address of [C]. *)
  Inductive always_samples (C : list string) : list string -> model -> Prop :=
  | al_ret o : always_samples C [] (MRet o)
  | al_hit a d rep k left left' :
      Permutation left (a :: left') -> (forall v, always_samples C left' (k v)) ->
      always_samples C left (MVar a d None rep k)
  | al_skip a d v rep k left :
      ~ In a C -> (forall v, always_samples C left (k v)) -> always_samples C left (MVar a d v rep k).

  (** A target: a Program, or a target extended by a kernel that observes nothing.  The
      objects are distinct enough for the substituted trace to reach all of them. *)
  Fixpoint target_ok (sp : string -> Sp M) (C : list string) (t : inf L) (c : pyval) (kws : dict pyval) : Prop :=
    match t with
    | IProg _ sg m => pure sp (m c (prog_kwargs sg kws))
    | IExtend oid p (IProg f sg m) o =>
        ~ In oid (substituted t) /\ ~ In f (substituted p) /\
        target_ok sp C p c (sub_kwargs (in_ix o) kws) /\
        forall c1, returns_value (target p c (sub_kwargs (in_ix o) kws)) c1 ->
          let k := m c1 (prog_kwargs sg (sub_kwargs (in_ix o) kws)) in
          pure sp k /\ (forall a, ~ observes k a) /\ (forall a, samples k a -> In a C)
    | _ => False
    end.

  (** An inference program: Programs, Compose, and Propose of a target whose proposal shares
      with it the sampled addresses [C] - sampled by every execution of both - and nothing
      else: other variables of the proposal are auxiliary, other variables of the target
      are sampled by the target itself, but the kernels of an Extend must be proposed. *)
  Fixpoint weightable (sp : string -> Sp M) (t : inf L) (c : pyval) (kws : dict pyval) : Prop :=
    match t with
    | IProg _ sg m => pure sp (m c (prog_kwargs sg kws))
    | ICompose _ q2 q1 o =>
        weightable sp q1 c (sub_kwargs (in_ix o) kws) /\
        forall c1, returns_value (target q1 c (sub_kwargs (in_ix o) kws)) c1 ->
          weightable sp q2 c1 (sub_kwargs (in_ix o) kws)
    | IPropose _ p q o tf _ =>
        tf = None /\ weightable sp q c (sub_kwargs (in_ix o) kws) /\
        exists C, NoDup C /\ target_ok sp C p c (sub_kwargs (in_ix o) kws) /\
          always_samples C C (target q c (sub_kwargs (in_ix o) kws)) /\
          always_samples C C (target p c (sub_kwargs (in_ix o) kws)) /\
          forall a, samples (target q c (sub_kwargs (in_ix o) kws)) a \/ observes (target q c (sub_kwargs (in_ix o) kws)) a ->
                    samples (target p c (sub_kwargs (in_ix o) kws)) a -> In a C
    | _ => False
    end.

  (** the values of a trace, by address *)
  Definition values (tr : trace L) : list (string * T) := map (fun ar => (fst ar, rv_value (snd ar))) tr.

  (** exp(log_weight) times a function of the returned values and output *)
  Definition weighted (h : list (string * T) -> pyval -> R) (x : res (out L) * st L) : R :=
    match fst x with
    | Ok o => (exp (lw M (out_lw o)) * h (values (out_trace o)) (out_output o))%R
    | Err _ => 0%R
    end.
End Spec.
