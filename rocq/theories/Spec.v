(** Small specifications, written without reference to the model's interpreter.  The
    property theorems (Prop_*.v) are stated with these. *)
From Verif Require Export Inference.

(** ** Traces as finite maps *)
Section TraceSpec.
  Context {V : Type}.

  (** the items of several dicts, one after the other *)
  Definition all_items (ds : list (dict V)) : list (string * V) := concat ds.

  (** keep the first occurrence of every key *)
  Fixpoint first_keys (seen : list string) (ks : list string) : list string :=
    match ks with
    | [] => []
    | k :: ks' => if mem k seen then first_keys seen ks' else k :: first_keys (k :: seen) ks'
    end.

  Definition disjoint_keys (a b : dict V) : Prop := forall k, In k (dkeys a) -> ~ In k (dkeys b).

  (** [c] is the disjoint union of [a] and [b] *)
  Definition is_union (a b c : dict V) : Prop :=
    disjoint_keys a b /\
    forall k, dget k c = match dget k a with Some v => Some v | None => dget k b end.
End TraceSpec.

(** ** Sums of log-densities *)
Section Sums.
  Context (L : lib).

  Definition tsum (l : list (T L)) : T L := fold_right (tadd L) (tzero L) l.

  (** the sum of the (batch-summed) log-densities of the nodes of [tr] selected by [P] *)
  Definition logp_sum (sd bd : pyval (T L)) (P : string -> rv L -> bool) (tr : trace L) : T L :=
    tsum (map (fun kr => bsum L sd bd (rv_logp (snd kr)))
              (filter (fun kr => P (fst kr) (snd kr)) tr)).

  (** "address [a] is latent (present and not OBSERVED) in [tr]" *)
  Definition latent_in (tr : trace L) (a : string) : bool :=
    match dget a tr with Some r => negb (is_observed r) | None => false end.
  Definition latent_in_opt (tr : option (trace L)) (a : string) : bool :=
    match tr with Some t => latent_in t a | None => false end.
End Sums.
Arguments tsum {L}. Arguments logp_sum {L}. Arguments latent_in {L}. Arguments latent_in_opt {L}.

(** ** Draws
    [path t ds a]: the run [t] draws exactly the values listed in [ds], in that order, and
    ends with [a]. *)
Inductive path {L : lib} {A} : stree L A -> list (draw_kind L * T L) -> A -> Prop :=
| path_leaf a : path (Leaf a) [] a
| path_draw d k v ds a : path (k v) ds a -> path (Draw d k) ((d, v) :: ds) a.

(** Two runs that draw from the same distributions in the same order and end, on equal
    draws, with results related by [R]. *)
Inductive same_draws {L : lib} {A B} (R : A -> B -> Prop) : stree L A -> stree L B -> Prop :=
| sd_leaf a b : R a b -> same_draws R (Leaf a) (Leaf b)
| sd_draw d k k' : (forall v, same_draws R (k v) (k' v)) -> same_draws R (Draw d k) (Draw d k').

(** ** Calls
    [returns m s a s']: run in state [s], the call [m] can return [a], leaving state [s'].
    [raises m s e s']: it can raise [e]. *)
Definition returns {L : lib} {A} (m : M L A) (s : st L) (a : A) (s' : st L) : Prop :=
  outcome (m s) (Ok a, s').
Definition raises {L : lib} {A} (m : M L A) (s : st L) (e : exn) (s' : st L) : Prop :=
  outcome (m s) (Err e, s').

(** The keyword arguments a combinator whose own index is [self_ix] (None if it has none)
    hands to the programs it runs, when it is called with [kws]: the caller's, with the
    defaults of the library filled in and the index replaced by its own if it has one. *)
Definition sub_kwargs {L : lib} (self_ix : pyval (T L)) (kws : dict (pyval (T L))) : dict (pyval (T L)) :=
  [("_debug", kwarg "_debug" (VBool false) kws);
   ("ix", if is_none self_ix then kwarg "ix" VNone kws else self_ix);
   ("sample_dims", kwarg "sample_dims" VNone kws);
   ("batch_dim", kwarg "batch_dim" VNone kws);
   ("reparameterized", kwarg "reparameterized" (VBool true) kws)]
  ++ filter (fun kv => negb (mem (fst kv) ["sample_dims"; "batch_dim"; "_debug"; "reparameterized"; "ix"])) kws.

(** The conditioning traces held by the state are dicts. *)
Definition wf_st {L : lib} (s : st L) : Prop := forall i t, get_cond i s = Some t -> wf_dict t.

(** The objects whose conditioning trace a call of [t] assigns: both programs of every
    Extend, the target of every Propose. *)
Fixpoint substituted {L : lib} (t : inf L) : list nat :=
  match t with
  | IProg _ _ _ => []
  | IResample _ q _ _ _ _ => substituted q
  | IExtend _ p f _ => oid_of p :: oid_of f :: substituted p ++ substituted f
  | ICompose _ q2 q1 _ => substituted q1 ++ substituted q2
  | IPropose _ p q _ _ _ => oid_of p :: substituted q ++ substituted p
  end.

(** [says m a d v rep]: somewhere in the user model [m] there is a statement
    [trace.variable(d, name=a, value=v, reparameterized=rep)] ([v = None]: no value given). *)
Inductive says {L : lib} : model L -> string -> D L -> option (T L) -> bool -> Prop :=
| says_here a d v rep k : says (MVar a d (option_map (fun x => (x, None)) v) rep k) a d v rep
| says_var n d0 v0 rep0 k x a d v rep : says (k x) a d v rep -> says (MVar n d0 v0 rep0 k) a d v rep
| says_cond k x a d v rep : says (k x) a d v rep -> says (MCond k) a d v rep
| says_trace k x a d v rep : says (k x) a d v rep -> says (MTrace k) a d v rep
| says_get key k x a d v rep : says (k x) a d v rep -> says (MGetStore key k) a d v rep
| says_set key w k a d v rep : says k a d v rep -> says (MSetStore key w k) a d v rep.

(** A model made only of sample and observe statements (and reads of its traces and of the
    global store): no injected nodes, no explicit provenances, no draws outside the trace. *)
Inductive plain {L : lib} : model L -> Prop :=
| plain_ret o : plain (MRet o)
| plain_raise e : plain (MRaise e)
| plain_var a d v rep k : (forall x, plain (k x)) -> plain (MVar a d (option_map (fun x => (x, None)) v) rep k)
| plain_cond k : (forall x, plain (k x)) -> plain (MCond k)
| plain_trace k : (forall x, plain (k x)) -> plain (MTrace k)
| plain_get key k : (forall x, plain (k x)) -> plain (MGetStore key k)
| plain_set key w k : plain k -> plain (MSetStore key w k).

(** the value that trace [t] (if any) has for address [a] *)
Definition value_in {L : lib} (t : option (trace L)) (a : string) : option (T L) :=
  match t with Some tr => option_map (@rv_value L) (dget a tr) | None => None end.

(** Node [r] at address [a] comes from a statement of the model [m] run under the
    substituted trace [cond]: its value is the explicit one (OBSERVED), or the substituted one
    (REUSED), or a drawn one (SAMPLED), and its log-density is that of the statement's
    distribution at its value. *)
Definition node_explained {L : lib} (cond : option (trace L)) (m : model L) (a : string) (r : rv L) : Prop :=
  exists d v rep,
    says m a d v rep /\
    rv_den r = Proper d /\ rv_logp r = logp L d (rv_value r) /\ rv_rep r = rep /\
    match v with
    | Some x => rv_prov r = OBSERVED /\ rv_value r = x
    | None => match value_in cond a with
              | Some x => rv_prov r = REUSED /\ rv_value r = x
              | None => rv_prov r = SAMPLED
              end
    end.

(** The draws that the SAMPLED nodes of a trace account for, in order: one draw of the node's
    distribution, whose result is the node's value. *)
Definition sampled_draws {L : lib} (tr : trace L) : list (draw_kind L * T L) :=
  map (fun ar => (match rv_den (snd ar) with
                  | Proper d => DrawDist d (rv_rep (snd ar)) VNone
                  | _ => DrawRand
                  end, rv_value (snd ar)))
      (filter (fun ar => prov_eqb (rv_prov (snd ar)) SAMPLED) tr).

(** [tr'] is [tr] with detached values and log-densities recomputed there. *)
Definition detached_rerun {L : lib} (tr tr' : trace L) : Prop :=
  Forall2 (fun kr kr' =>
    fst kr' = fst kr /\
    rv_value (snd kr') = detach L (rv_value (snd kr)) /\
    rv_prov (snd kr') = rv_prov (snd kr) /\
    rv_den (snd kr') = rv_den (snd kr) /\
    match rv_den (snd kr) with
    | Proper d => rv_logp (snd kr') = logp L d (detach L (rv_value (snd kr))) /\
                  rv_rep (snd kr') = rv_rep (snd kr)
    | Improper f => rv_logp (snd kr') = f (detach L (rv_value (snd kr)))
    | OtherRV => False
    end) tr tr'.

(** address [a] of the proposal's trace [qt] is charged to the proposal: OBSERVED there, or
    latent both there and in the target's trace [pt] *)
Definition charged {L : lib} (qt pt : trace L) (a : string) : bool :=
  match dget a qt with Some r => is_observed r || latent_in pt a | None => false end.

(** A view of tensors as numeric values that may carry a gradient. *)
Record grad_view (L : lib) : Type := mkGV {
  gv_val : Type; val : T L -> gv_val; no_grad : T L -> Prop;
  val_detach : forall x, val (detach L x) = val x;
  no_grad_detach : forall x, no_grad (detach L x) }.
Arguments val {L} g x. Arguments no_grad {L} g x. Arguments mkGV {L}.

(** A history of inference calls: each may be on any program, may return or raise. *)
Inductive session {L : lib} : st L -> st L -> Prop :=
| session_nil s : session s s
| session_call s t c kws r s1 s2 : outcome (run t c kws s) (r, s1) -> session s1 s2 -> session s s2.

Definition is_some {A} (x : option A) : bool := match x with Some _ => true | None => false end.

(** The contract of the kernel [f] of Extend(p, f), given p's result [po] and f's result [fo]:
    nothing OBSERVED, no address in common with p and, unless the Extend itself is under
    substitution, nothing REUSED and weight 0. *)
Definition kernel_ok {L : lib} (conditioned : bool) (po fo : out L) : Prop :=
  (forall a r, In (a, r) (out_trace fo) -> rv_prov r <> OBSERVED) /\
  disjoint_keys (out_trace po) (out_trace fo) /\
  (conditioned = false ->
     (forall a r, In (a, r) (out_trace fo) -> rv_prov r <> REUSED) /\ eq_zero L (out_lw fo) = Ok true).

(** Which trace [tr] and output [v] a Propose takes from its target's result [po]: the
    marginal part when the target is an Extend, everything otherwise. *)
Definition target_part {L : lib} (p : inf L) (po : out L) (tr : trace L) (v : pyval (T L)) : Prop :=
  match p with
  | IExtend _ _ _ _ => exists keys, out_marginal po = Some (keys, v) /\
      tr = filter (fun ar => mem (fst ar) keys) (out_trace po)
  | _ => tr = out_trace po /\ v = out_output po
  end.

(** no tensor of the output (top level, or one dict level down) carries a gradient *)
Definition output_no_grad {L : lib} (G : grad_view L) (v : pyval (T L)) : Prop :=
  match v with
  | VTensor t => no_grad G t
  | VDict d => forall k t, In (k, VTensor t) d -> no_grad G t
  | _ => True
  end.
(** same output, tensors compared by their numeric value (top level and one dict level) *)
Definition same_value {L : lib} (G : grad_view L) (v w : pyval (T L)) : Prop :=
  match v, w with VTensor a, VTensor b => val G a = val G b | _, _ => v = w end.
Definition same_output {L : lib} (G : grad_view L) (v w : pyval (T L)) : Prop :=
  match v, w with
  | VDict d, VDict e => Forall2 (fun kv kw => fst kv = fst kw /\ same_value G (snd kv) (snd kw)) d e
  | _, _ => same_value G v w
  end.

(** ** Sharing of program objects *)

(** the programs a program is made of, at any depth (itself included) *)
Fixpoint parts {L : lib} (t : inf L) : list (inf L) :=
  t :: match t with
       | IProg _ _ _ => []
       | IResample _ q _ _ _ _ => parts q
       | IExtend _ p f _ => parts p ++ parts f
       | ICompose _ q2 q1 _ => parts q2 ++ parts q1
       | IPropose _ p q _ _ _ => parts p ++ parts q
       end.
(** the objects strictly inside a program *)
Definition inner {L : lib} (t : inf L) : list nat := map oid_of (tl (parts t)).

(** equal programs, up to which nodes are the same object *)
Fixpoint same_shape {L : lib} (t t' : inf L) : Prop :=
  match t, t' with
  | IProg _ sg m, IProg _ sg' m' => sg = sg' /\ m = m'
  | IResample _ q ix l0 rs d, IResample _ q' ix' l0' rs' d' =>
      same_shape q q' /\ ix = ix' /\ l0 = l0' /\ rs = rs' /\ d = d'
  | IExtend _ p f o, IExtend _ p' f' o' => same_shape p p' /\ same_shape f f' /\ o = o'
  | ICompose _ q2 q1 o, ICompose _ q2' q1' o' => same_shape q2 q2' /\ same_shape q1 q1' /\ o = o'
  | IPropose _ p q o tf nr, IPropose _ p' q' o' tf' nr' =>
      same_shape p p' /\ same_shape q q' /\ o = o' /\ tf = tf' /\ nr = nr'
  | _, _ => False
  end.

(** No program is a component of itself; and in an Extend(p, f) that may run under
    substitution ([cond]: it is the target of a Propose, or a component of such an Extend),
    neither of p and f is a component of the other (they may be the same object). *)
Fixpoint well_scoped {L : lib} (cond : bool) (t : inf L) : Prop :=
  ~ In (oid_of t) (inner t) /\
  match t with
  | IProg _ _ _ => True
  | IResample _ q _ _ _ _ => well_scoped false q
  | IExtend _ p f _ => well_scoped cond p /\ well_scoped cond f /\
      (cond = true -> ~ In (oid_of f) (inner p) /\ ~ In (oid_of p) (inner f))
  | ICompose _ q2 q1 _ => well_scoped false q2 /\ well_scoped false q1
  | IPropose _ p q _ _ _ => well_scoped true p /\ well_scoped false q
  end.

(** nothing is conditioned *)
Definition clean {L : lib} (s : st L) : Prop := forall i, get_cond i s = None.

(** both runs end alike: same result or same exception, same global store *)
Definition same_end {L : lib} {A} (x y : res A * st L) : Prop :=
  fst x = fst y /\ store (snd x) = store (snd y).

(** ** The _debug argument *)
(** keyword arguments other than _debug *)
Definition no_debug {V} (kws : dict V) : dict V := filter (fun kv => negb (String.eqb (fst kv) "_debug")) kws.
(** a result without its intermediate results *)
Definition no_subs {L : lib} (o : out L) : out L :=
  mkOut (out_trace o) (out_lw o) (out_output o) (out_type o) (out_ix o) (out_loss o) (out_marginal o) (out_px o) [].
(** a function with signature [sg] has no parameter _debug and, if it accepts arbitrary keyword
    arguments, does not look at one of that name *)
Definition ignores_debug {V B} (sg : sig) (f : dict V -> B) : Prop :=
  ~ In "_debug" (s_args sg) /\ ~ In "_debug" (s_kwonly sg) /\
  (s_varkw sg = true -> forall k k', no_debug k = no_debug k' -> f k = f k').
Fixpoint debug_blind {L : lib} (t : inf L) : Prop :=
  match t with
  | IProg _ sg m => forall c, ignores_debug sg (m c)
  | IResample _ q _ _ _ _ => debug_blind q
  | IExtend _ p f _ => debug_blind p /\ debug_blind f
  | ICompose _ q2 q1 _ => debug_blind q2 /\ debug_blind q1
  | IPropose _ p q _ tf _ => debug_blind p /\ debug_blind q /\
      match tf with None => True | Some f => forall tr, ignores_debug (tf_sig f) (tf_call f tr) end
  end.
(** same exception, or results equal up to the intermediate results; same global store *)
Definition same_but_subs {L : lib} (x y : res (out L) * st L) : Prop :=
  match fst x, fst y with Ok a, Ok b => no_subs a = no_subs b | Err e, Err e' => e = e' | _, _ => False end /\
  store (snd x) = store (snd y).

(** ** Losses *)
(** the combinators on the proposal spine of a program, outermost first: itself, then those of
    its q (Propose, Resample), q1 (Compose) or p (Extend) *)
Fixpoint spine {L : lib} (t : inf L) : list (inf L) :=
  match t with
  | IProg _ _ _ => []
  | IResample _ q _ _ _ _ => t :: spine q
  | IExtend _ p _ _ => t :: spine p
  | ICompose _ _ q1 _ => t :: spine q1
  | IPropose _ _ q _ _ _ => t :: spine q
  end.
(** the loss function given to a combinator; Resample takes none and forwards the loss *)
Definition loss_fn {L : lib} (t : inf L) : out L -> T L -> res (T L) :=
  match t with
  | IProg _ _ _ | IResample _ _ _ _ _ _ => fun _ l => Ok l
  | IExtend _ _ _ o | ICompose _ _ _ o | IPropose _ _ _ o _ _ => in_loss o
  end.
(** loss0 of the innermost combinator of the spine (0.0 when it has none) *)
Fixpoint spine_loss0 {L : lib} (t : inf L) : T L :=
  let here (l0 : option (T L)) (child : inf L) (rec : T L) :=
    match child with IProg _ _ _ => match l0 with Some l => l | None => tzero L end | _ => rec end in
  match t with
  | IProg _ _ _ => tzero L
  | IResample _ q _ l0 _ _ => here l0 q (spine_loss0 q)
  | IExtend _ p _ o => here (in_loss0 o) p (spine_loss0 p)
  | ICompose _ _ q1 o => here (in_loss0 o) q1 (spine_loss0 q1)
  | IPropose _ _ q o _ _ => here (in_loss0 o) q (spine_loss0 q)
  end.
(** the right fold of the loss functions over the results of the spine *)
Fixpoint fold_losses {L : lib} (fs : list (out L -> T L -> res (T L))) (rs : list (out L)) (init : T L) : res (T L) :=
  match fs, rs with
  | f :: fs', r :: rs' => rbind (fold_losses fs' rs' init) (f r)
  | _, _ => Ok init
  end.
(** a result as the loss function sees it: without loss and intermediate results *)
Definition before_loss {L : lib} (o : out L) : out L :=
  mkOut (out_trace o) (out_lw o) (out_output o) (out_type o) (out_ix o) None (out_marginal o) (out_px o) [].

(** ** Keyword arguments *)
(** a callable with this signature accepts keyword [k] *)
Definition accepts (sg : sig) (k : string) : Prop :=
  s_varkw sg = true \/ In k (s_kwonly sg) \/ In k (s_args sg).
Definition callee_accepts (fn : callee) (k : string) : Prop :=
  accepts (c_self fn) k \/
  (exists sg, c_forward fn = Some sg /\ accepts sg k) \/ (exists sg, c_model fn = Some sg /\ accepts sg k).

(** The programs run by a call of [t], in order: object, signature of its model, and the [ix]
    of the enclosing combinators, innermost first. *)
Fixpoint leaves {L : lib} (enclosing : list (pyval (T L))) (t : inf L) : list (nat * sig * list (pyval (T L))) :=
  match t with
  | IProg i sg _ => [(i, sg, enclosing)]
  | IResample _ q ix _ _ _ => leaves (ix :: enclosing) q
  | IExtend _ p f o => leaves (in_ix o :: enclosing) p ++ leaves (in_ix o :: enclosing) f
  | ICompose _ q2 q1 o => leaves (in_ix o :: enclosing) q1 ++ leaves (in_ix o :: enclosing) q2
  | IPropose _ p q o _ _ => leaves (in_ix o :: enclosing) q ++ leaves (in_ix o :: enclosing) p
  end.
(** the index of the nearest enclosing combinator that defines one, else the caller's *)
Fixpoint effective_ix {V} (enclosing : list (pyval V)) (callers : pyval V) : pyval V :=
  match enclosing with
  | [] => callers
  | ix :: e => match ix with VNone => effective_ix e callers | _ => ix end
  end.
(** what a program below the combinators [enclosing] is offered under keyword [k], when the
    outermost call was made with [kws] *)
Definition offered {L : lib} (enclosing : list (pyval (T L))) (kws : dict (pyval (T L))) (k : string) : option (pyval (T L)) :=
  if String.eqb k "sample_dims" then Some (kwarg k VNone kws)
  else if String.eqb k "batch_dim" then Some (kwarg k VNone kws)
  else if String.eqb k "reparameterized" then Some (kwarg k (VBool true) kws)
  else match enclosing with
       | [] => dget k kws
       | _ => if String.eqb k "ix" then Some (effective_ix enclosing (kwarg k VNone kws))
              else if String.eqb k "_debug" then Some (kwarg k (VBool false) kws)
              else dget k kws
       end.
(** the recorded invocation of a user model is the one expected of the program [leaf] *)
Definition call_matches {L : lib} (kws : dict (pyval (T L))) (leaf : nat * sig * list (pyval (T L))) (cl : call L) : Prop :=
  let '(i, sg, enclosing) := leaf in
  call_oid cl = i /\ wf_dict (call_kwargs cl) /\
  forall k v, dget k (call_kwargs cl) = Some v <-> accepts sg k /\ offered enclosing kws k = Some v.

(** the intermediate results _debug adds to a result, and the programs they are results of *)
Definition intermediate {L : lib} (t : inf L) : list (string * inf L) :=
  match t with
  | IProg _ _ _ => []
  | IResample _ q _ _ _ _ => [("q_out", q)]
  | IExtend _ p f _ => [("p_out", p); ("f_out", f)]
  | ICompose _ q2 q1 _ => [("q1_out", q1); ("q2_out", q2)]
  | IPropose _ p q _ _ _ => [("q_out", q); ("p_out", p)]
  end.
(** debugging is asked for by the call or by the program's constructor *)
Definition debugging {L : lib} (t : inf L) (kws : dict (pyval (T L))) : bool :=
  truthy (kwarg "_debug" (VBool false) kws) ||
  match t with
  | IProg _ _ _ => false
  | IResample _ _ _ _ _ d => d
  | IExtend _ _ _ o | ICompose _ _ _ o | IPropose _ _ _ o _ _ => in_debug o
  end.

(** nodes with the same identity are the same program: what any tree built from Python objects
    satisfies *)
Definition consistent {L : lib} (t : inf L) : Prop :=
  forall u v, In u (parts t) -> In v (parts t) -> oid_of u = oid_of v -> u = v.
