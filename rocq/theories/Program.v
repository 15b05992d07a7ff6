(** Model of /repo/combinators/program.py: conditioning, Program.forward, and of
    maybe_sample in /repo/combinators/trace/utils.py. *)
From Verif Require Export TraceUtils Dispatch Tree.

Section Program.
  Context (L : lib).
  Notation T := (T L). Notation D := (D L).
  Notation trace := (trace L). Notation rv := (rv L).
  Notation pyval := (pyval T).

  (** ** User models
      The body of [Program.model(trace, c, **kwargs)] is arbitrary Python code that
      interacts with the library only through its trace, its conditioning trace, the
      global store and random draws.  It is represented by the tree of those
      interactions; everything between two interactions is the continuation. *)
  Inductive model : Type :=
  | MRet (o : pyval)                                   (* return o *)
  | MRaise (e : exn)                                   (* raise e *)
  | MVar (name : string) (d : D) (value : option (T * option prov)) (rep : bool)
      (k : T -> model)                                 (* trace.variable / trace.normal(..., name, [value, [provenance]], reparameterized) *)
  | MInject (name : string) (r : rv) (k : model)       (* trace._inject(rv, name, silent) *)
  | MCond (k : option trace -> model)                  (* read trace._cond_trace / self._cond_trace *)
  | MTrace (k : trace -> model)                        (* read the trace built so far *)
  | MDraw (d : D) (rep : bool) (shape : pyval) (k : T -> model) (* dist.sample / dist.rsample *)
  | MGetStore (key : string) (k : option pyval -> model) (* global_store lookup *)
  | MSetStore (key : string) (v : pyval) (k : model).    (* global_store[key] = v *)

  (** One recorded invocation of a user model (ghost: observes what the model receives). *)
  Record call : Type := mkCall {
    call_oid : nat; call_arg : pyval; call_kwargs : dict pyval; call_cond : option trace }.

  (** ** Run-time state
      [conds]: the [_cond_trace] attributes of the objects that have one set (an object
      that is absent has [_cond_trace = None]), keyed by object identity;
      [store]: the dict part of [global_store]; [hook]: its resample_update hook
      (/repo/combinators/out.py:88-134); [calls]: ghost log of model invocations. *)
  Record st : Type := mkSt {
    conds : list (nat * trace);
    store : dict pyval;
    hook : dict pyval -> trace -> trace -> res (dict pyval);
    calls : list call }.

  Fixpoint cget (i : nat) (l : list (nat * trace)) : option trace :=
    match l with
    | [] => None
    | (j, t) :: l' => if Nat.eqb i j then Some t else cget i l'
    end.
  Definition cdel (i : nat) (l : list (nat * trace)) : list (nat * trace) :=
    filter (fun jt => negb (Nat.eqb i (fst jt))) l.
  (** [program._cond_trace = t] *)
  Definition cset (i : nat) (t : option trace) (l : list (nat * trace)) : list (nat * trace) :=
    match t with
    | Some t => (i, t) :: cdel i l
    | None => cdel i l
    end.

  Definition set_cond (i : nat) (t : option trace) (s : st) : st :=
    mkSt (cset i t (conds s)) (store s) (hook s) (calls s).
  Definition get_cond (i : nat) (s : st) : option trace := cget i (conds s).
  Definition set_store (d : dict pyval) (s : st) : st := mkSt (conds s) d (hook s) (calls s).
  Definition log_call (c : call) (s : st) : st :=
    mkSt (conds s) (store s) (hook s) (calls s ++ [c]).

  (** ** The monad: state survives exceptions *)
  Definition M (A : Type) : Type := st -> stree L (res A * st).
  Definition ret {A} (a : A) : M A := fun s => Leaf (Ok a, s).
  Definition raise {A} (e : exn) : M A := fun s => Leaf (Err e, s).
  Definition lift {A} (r : res A) : M A := fun s => Leaf (r, s).
  Definition mbind {A B} (m : M A) (f : A -> M B) : M B :=
    fun s => tbind (m s) (fun rs => match fst rs with
                                    | Ok a => f a (snd rs)
                                    | Err e => Leaf (Err e, snd rs)
                                    end).
  Definition get : M st := fun s => Leaf (Ok s, s).
  Definition modify (f : st -> st) : M unit := fun s => Leaf (Ok tt, f s).
  Definition massert (b : bool) : M unit := if b then ret tt else raise AssertionError.
  (** try: m finally: f *)
  Definition mfinally {A} (m : M A) (f : st -> st) : M A :=
    fun s => tbind (m s) (fun rs => Leaf (fst rs, f (snd rs))).

  (** WithSubstitution, /repo/combinators/program.py:33-46, as the statement
      [with WithSubstitution(program, t): m] on the object with identity [oid].
      __init__ copies the trace (copytraces); __enter__ assigns it; __exit__ assigns None
      (it does not restore the previous value) on every way out of the block. *)
  Definition with_substitution {A} (oid : nat) (t : option trace) (m : M A) : M A :=
    mbind (match t with
           | None => ret None
           | Some tr => lift (rmap Some (copytraces no_excl NoOverlaps [tr]))
           end)
      (fun t' => mbind (modify (set_cond oid t'))
      (fun _ => mfinally m (set_cond oid None))).

  (** ** Running a user model
      probtorch Trace.variable: an explicit value makes the node OBSERVED unless a
      provenance is given; otherwise a name of the conditioning trace is reused (value of
      that trace, REUSED); otherwise a value is drawn (SAMPLED).  Same rule as
      maybe_sample below.  Adding a name twice raises ValueError. *)
  Definition add_node (name : string) (r : rv) (tr : trace) : res trace :=
    if dmem name tr then Err ValueError else Ok (dset name r tr).

  Fixpoint exec (cond : option trace) (m : model) (tr : trace) : M (pyval * trace) :=
    match m with
    | MRet o => ret (o, tr)
    | MRaise e => raise e
    | MVar name d value rep k =>
        let finish (v : T) (p : prov) : M (pyval * trace) :=
          mbind (lift (add_node name (mkRV (Proper d) v (logp L d v) p rep true) tr))
                (fun tr' => exec cond (k v) tr') in
        match value with
        | Some (v, pv) => finish v (match pv with Some p => p | None => OBSERVED end)
        | None =>
            match (match cond with Some ct => dget name ct | None => None end) with
            | Some r => finish (rv_value r) REUSED
            | None => fun s => Draw (DrawDist d rep VNone)
                                 (fun v => finish v SAMPLED s)
            end
        end
    | MInject name r k => exec cond k (dset name r tr)
    | MCond k => exec cond (k cond) tr
    | MTrace k => exec cond (k tr) tr
    | MDraw d rep shape k => fun s => Draw (DrawDist d rep shape) (fun v => exec cond (k v) tr s)
    | MGetStore key k => fun s => exec cond (k (dget key (store s))) tr s
    | MSetStore key v k => fun s => exec cond k tr (set_store (dset key v (store s)) s)
    end.

  (** maybe_sample(trace, sample_shape, reparameterized)(dist, name),
      /repo/combinators/trace/utils.py:50-77, as a piece of a model.  [has_rsample] is the
      attribute of the distribution. *)
  Definition maybe_sample (tr : option trace) (shape : pyval) (rep : option bool) (has_rsample : bool)
    (d : D) (name : string) (k : T -> prov -> bool -> model) : model :=
    let r := match rep with Some b => b | None => has_rsample end in
    match (match tr with Some t => dget name t | None => None end) with
    | Some node => k (rv_value node) REUSED r
    | None => MDraw d r shape (fun v => k v SAMPLED r)
    end.

  (** ** Results *)
  Inductive otype : Type := TyProgram | TyResample | TyExtend | TyCompose | TyPropose.

  (** The keys Propose adds for the objectives API, /repo/combinators/inference.py:418-432. *)
  Record pextras : Type := mkPX {
    px_nodes : list string; px_lv : T; px_lw : T;
    px_proposal_trace : trace; px_target_trace : trace; px_forward_trace : option trace }.

  (** combinators.out.Out as used by the combinators: trace, log_weight, output and the
      items found in [extras]; an item that is absent is [None].  [out_subs] holds the
      debug items q_out, p_out, f_out, q1_out, q2_out. *)
  Inductive out : Type := mkOut {
    out_trace : trace; out_lw : T; out_output : pyval; out_type : otype;
    out_ix : option pyval; out_loss : option T;
    out_marginal : option (list string * pyval);
    out_px : option pextras;
    out_subs : list (string * out) }.

  (** the value of keyword [k], or its default *)
  Definition kwarg (k : string) (dflt : pyval) (kws : dict pyval) : pyval :=
    match dget k kws with Some v => v | None => dflt end.

  (** Passing by keyword a parameter that is already bound positionally is a TypeError.
      [Program.model] is a bound method called with the trace and one argument, so its
      first three parameters are taken. *)
  Definition clash (bound : list string) (kws : dict pyval) : bool :=
    existsb (fun kv => mem (fst kv) bound) kws.

  (** Program.forward, /repo/combinators/program.py:60-112, of the object [oid] whose
      [model] method has signature [sg] and body [m].  Only one positional argument is
      modelled (the combinators pass exactly one). *)
  Definition forward (oid : nat) (sg : sig) (m : pyval -> dict pyval -> model)
    (c : pyval) (kws : dict pyval) : M out :=
    let sd := kwarg "sample_dims" VNone kws in
    let bd := kwarg "batch_dim" VNone kws in
    let rep := kwarg "reparameterized" (VBool true) kws in
    let shape_kwargs := [("sample_dims", sd); ("batch_dim", bd); ("reparameterized", rep)] in
    let kwargs := filter (fun kv => negb (mem (fst kv) ["sample_dims"; "batch_dim"; "reparameterized"])) kws in
    let all_kwargs := dmerge shape_kwargs kwargs in
    let passed := filter (fun kv => check_passable_kwarg (fst kv) sg) all_kwargs in
    if clash ["self"] kws || clash (firstn 3 (s_args sg)) passed then raise TypeError else
    mbind get (fun s0 =>
    let cond := get_cond oid s0 in
    mbind (modify (log_call (mkCall oid c passed cond))) (fun _ =>
    mbind (exec cond (m c passed) []) (fun ot =>
    let '(o, tr) := ot in
    let rho_addrs := dkeys tr in
    let tau_addrs := latent_addrs tr in
    let tau_prime_addrs := match cond with Some ct => latent_addrs ct | None => [] end in
    mbind (lift (log_joint sd bd rep (sdiff rho_addrs (sdiff tau_addrs tau_prime_addrs)) tr)) (fun lw =>
    ret (mkOut tr lw o TyProgram None None None None []))))).
End Program.

Arguments MRet {L}. Arguments MRaise {L}. Arguments MVar {L}. Arguments MInject {L}.
Arguments MCond {L}. Arguments MTrace {L}. Arguments MDraw {L}. Arguments MGetStore {L}.
Arguments MSetStore {L}.
Arguments mkCall {L}. Arguments call_oid {L}. Arguments call_arg {L}. Arguments call_kwargs {L}.
Arguments call_cond {L}.
Arguments mkSt {L}. Arguments conds {L}. Arguments store {L}. Arguments hook {L}. Arguments calls {L}.
Arguments cget {L}. Arguments cdel {L}. Arguments cset {L}. Arguments set_cond {L}. Arguments get_cond {L}.
Arguments set_store {L}. Arguments log_call {L}.
Arguments ret {L A}. Arguments raise {L A}. Arguments lift {L A}. Arguments mbind {L A B}.
Arguments get {L}. Arguments modify {L}. Arguments massert {L}. Arguments mfinally {L A}.
Arguments with_substitution {L A}. Arguments add_node {L}. Arguments exec {L}. Arguments maybe_sample {L}.
Arguments mkPX {L}. Arguments px_nodes {L}. Arguments px_lv {L}. Arguments px_lw {L}.
Arguments px_proposal_trace {L}. Arguments px_target_trace {L}. Arguments px_forward_trace {L}.
Arguments mkOut {L}. Arguments out_trace {L}. Arguments out_lw {L}. Arguments out_output {L}.
Arguments out_type {L}. Arguments out_ix {L}. Arguments out_loss {L}. Arguments out_marginal {L}.
Arguments out_px {L}. Arguments out_subs {L}.
Arguments kwarg {L}. Arguments clash {L}. Arguments forward {L}.
