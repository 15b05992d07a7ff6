(** Specification of well-formed inference programs (property C60): a system of contracts that
    says which programs of Program, Resample, Extend, Compose and Propose run to the end. *)
From Verif Require Export SpecParticles.
From Verif Require Import SpecGibbs.
Open Scope nat_scope.

(** ** What the numbers of a run look like
    [drawable d v]: a draw of kind [d] may give [v].  [value]: what random variables hold;
    [log_prob]: what log-densities are; [weight]: tensors of log-weights; [float]: log-weights
    that are Python floats (the sum over no node). *)
Record sorts (L : lib) : Type := mkSorts {
  drawable : draw_kind L -> T L -> Prop;
  value : T L -> Prop;
  log_prob_ : T L -> Prop;
  weight : T L -> Prop;
  float : T L -> Prop }.
Arguments drawable {L}. Arguments value {L}. Arguments log_prob_ {L}. Arguments weight {L}. Arguments float {L}.

(** [sd], [bd]: the sample_dims and batch_dim of the call. *)
Record sorts_laws {L : lib} (S : sorts L) (sd bd : pyval (T L)) : Prop := mkSortsLaws {
  so_draw : forall d rep sh v, drawable S (DrawDist d rep sh) v -> value S v;
  so_logp : forall d v, value S v -> log_prob_ S (logp L d v);
  so_sum : forall x, log_prob_ S x -> weight S (bsum L sd bd x);
  so_zero : float S (tzero L);
  so_add : forall x y, weight S x -> weight S y -> weight S (tadd L x y);
  so_add_float : forall x y, weight S x -> float S y -> weight S (tadd L x y) /\ weight S (tadd L y x);
  so_add_floats : forall x y, float S x -> float S y -> float S (tadd L x y);
  so_sub : forall x y, weight S x -> weight S y -> weight S (tsub L x y);
  so_sub_float : forall x y, weight S x -> float S y -> weight S (tsub L x y) /\ weight S (tsub L y x);
  so_sub_floats : forall x y, float S x -> float S y -> float S (tsub L x y);
  so_tensor : forall x, weight S x -> is_tensor L x = true;
  so_detach_value : forall x, value S x -> value S (detach L x);
  so_detach_weight : forall x, weight S x -> weight S (detach L x);
  so_compare : eq_zero L (tzero L) = Ok true;
  so_joint : forall rep b p, lj_ok L rep b p = true;
  so_order : forall l, Permutation (order L l) l }.

Section WellFormed.
  Context {L : lib} (S : sorts L).
  Notation T := (T L). Notation pyval := (pyval T). Notation trace := (trace L). Notation model := (model L).

  (** the results of a run when its draws are drawable *)
  Inductive reaches {A} : stree L A -> A -> Prop :=
  | reaches_leaf a : reaches (Leaf a) a
  | reaches_draw d k v a : drawable S d v -> reaches (k v) a -> reaches (Draw d k) a.

  (** ** Models
      [fine Q l m]: after the statements [l] (the addresses so far, each with whether it was
      observed), every execution of [m] uses each address once, observes values, and ends;
      the statements of the whole execution and the returned value satisfy [Q]. *)
  Inductive fine (Q : list (string * bool) -> pyval -> Prop) : list (string * bool) -> model -> Prop :=
  | fine_ret l o : Q l o -> fine Q l (MRet o)
  | fine_sample l a d rep k : ~ In a (map fst l) -> (forall v, value S v -> fine Q (l ++ [(a, false)]) (k v)) ->
      fine Q l (MVar a d None rep k)
  | fine_observe l a d v rep k : ~ In a (map fst l) -> value S v -> fine Q (l ++ [(a, true)]) (k v) ->
      fine Q l (MVar a d (Some (v, None)) rep k)
  | fine_draw l d rep sh k : (forall v, drawable S (DrawDist d rep sh) v -> fine Q l (k v)) -> fine Q l (MDraw d rep sh k)
  | fine_get l key k : (forall x, fine Q l (k x)) -> fine Q l (MGetStore key k)
  | fine_set l key x k : fine Q l k -> fine Q l (MSetStore key x k).

  (** ** Contracts
      Only the addresses [uses] occur; the addresses [always_latent] occur in every trace and are
      not observed; if [has_weight], the log-weight is a tensor; if [dict_output = Some ks], the
      output is a dict whose entries are tensors, except possibly those under the keys [ks]. *)
  Record contract : Type := mkContract {
    uses : list string; always_latent : list string; has_weight : bool; dict_output : option (list string) }.

  Definition good_node (r : rv L) : Prop :=
    value S (rv_value r) /\ log_prob_ S (rv_logp r) /\ exists d, rv_den r = Proper d.
  Definition good_trace (tr : trace) : Prop := wf_dict tr /\ forall a r, In (a, r) tr -> good_node r.
  Definition good_output (k : contract) (v : pyval) : Prop :=
    all_tensors (value S) v /\
    forall ks, dict_output k = Some ks -> exists d, v = VDict d /\ forall a x, In (a, x) d -> In a ks \/ exists t, x = VTensor t.
  Definition good_weight (k : contract) (x : T) : Prop :=
    (weight S x \/ float S x) /\ (has_weight k = true -> weight S x).
  Definition meets (k : contract) (o : out L) : Prop :=
    good_trace (out_trace o) /\ (forall a, In a (dkeys (out_trace o)) -> In a (uses k)) /\
    (forall a, In a (always_latent k) -> In a (latent_addrs (out_trace o))) /\
    good_weight k (out_lw o) /\ good_output k (out_output o).

  (** the contract as a property of one execution of a model *)
  Definition model_meets (k : contract) (l : list (string * bool)) (o : pyval) : Prop :=
    (forall a b, In (a, b) l -> In a (uses k)) /\ (forall a, In a (always_latent k) -> In (a, false) l) /\
    (has_weight k = true -> exists a, In (a, true) l) /\ good_output k o.

  (** Loss functions return; resamplers return on every good trace with a tensor of weights,
      keep the addresses and the provenances, and return weights. *)
  Definition total_loss (o : infopts L) : Prop := forall r l, exists l', in_loss o r l = Ok l'.
  Definition total_resampler (rs : resampler L) (sd bd rep : pyval) : Prop := forall tr lw r,
    good_trace tr -> weight S lw ->
    reaches (rs_call rs tr lw (filter (fun kv => check_passable_kwarg (fst kv) (rs_sig rs))
       [("sample_dims", sd); ("batch_dim", bd); ("reparameterized", rep)])) r ->
    exists items lw2, r = Ok (items, lw2) /\ weight S lw2 /\ good_trace items /\ dkeys items = dkeys tr /\ latent_addrs items = latent_addrs tr.

  Definition separate (k k' : contract) : Prop := forall a, In a (uses k) -> ~ In a (uses k').
  Definition is_program (t : inf L) : Prop := match t with IProg _ _ _ => True | _ => False end.

  (** the keyword arguments of the calls a program makes: those of the outer call, but for
      ix and _debug *)
  Definition part_of_call (given kws : dict pyval) : Prop :=
    plain_call kws /\
    kwarg "sample_dims" VNone kws = kwarg "sample_dims" VNone given /\ kwarg "batch_dim" VNone kws = kwarg "batch_dim" VNone given /\
    kwarg "reparameterized" (VBool true) kws = kwarg "reparameterized" (VBool true) given /\
    forall k, ~ In k ["sample_dims"; "batch_dim"; "_debug"; "reparameterized"; "ix"] -> dget k kws = dget k given.

  (** [well_formed given t k k']: called with the keyword arguments [given], [t] meets the
      contract [k]; as the target of a Propose it leaves a trace and an output that meet [k']
      (of an Extend, only the extended program's).
      Compose and Extend: addresses apart.  Extend: the kernel is a Program that observes
      nothing.  Propose: the target is not a Compose, the proposal is not a bare Program, and some
      weight is sure to be a tensor. Resample: the log-weight is a tensor, the output is a dict, and
      what it stores under addresses are tensors. *)
  Inductive well_formed (given : dict pyval) : inf L -> contract -> contract -> Prop :=
  | wf_program oid sg m k : firstn 3 (s_args sg) = ["self"; "trace"; "c"] ->
      (forall c kws, all_tensors (value S) c -> part_of_call given kws -> fine (model_meets k) [] (m c (prog_kwargs sg kws))) ->
      well_formed given (IProg oid sg m) k k
  | wf_compose oid q2 q1 o k1 k1' k2 k2' : well_formed given q1 k1 k1' -> well_formed given q2 k2 k2' ->
      separate k2 k1 -> total_loss o ->
      let k := mkContract (uses k1 ++ uses k2) (always_latent k1 ++ always_latent k2) (has_weight k1 || has_weight k2) (dict_output k2) in
      well_formed given (ICompose oid q2 q1 o) k k
  | wf_extend oid p fid sg m o kp kp' kf : well_formed given p kp kp' -> well_formed given (IProg fid sg m) kf kf ->
      (forall c kws, all_tensors (value S) c -> part_of_call given kws ->
         fine (fun l _ => forall a b, In (a, b) l -> b = false) [] (m c (prog_kwargs sg kws))) ->
      separate kf kp -> total_loss o -> oid <> oid_of p -> oid <> fid -> ~ In oid (substituted p) ->
      well_formed given (IExtend oid p (IProg fid sg m) o)
        (mkContract (uses kp ++ uses kf) (always_latent kp ++ always_latent kf) (has_weight kp || negb (length (always_latent kf) =? 0)) (dict_output kf)) kp
  | wf_propose oid p q o nr kp kp' kq kq' : well_formed given p kp kp' -> well_formed given q kq kq' ->
      is_compose p = false -> ~ is_program q -> total_loss o ->
      has_weight kp = true \/ has_weight kq = true \/ (exists a, In a (always_latent kp) /\ In a (always_latent kq)) ->
      let k := mkContract (uses kp') (always_latent kp') true (dict_output kp') in
      well_formed given (IPropose oid p q o None nr) k k
  | wf_resample oid q ix l0 rs dbg kq kq' ks : well_formed given q kq kq' -> has_weight kq = true ->
      dict_output kq = Some ks -> (forall a, In a ks -> ~ In a (uses kq)) ->
      total_resampler rs (kwarg "sample_dims" VNone given) (kwarg "batch_dim" VNone given) (kwarg "reparameterized" (VBool true) given) ->
      well_formed given (IResample oid q ix l0 rs dbg) kq kq.

  (** Nothing is conditioned, and the global store's resample hook returns. *)
  Definition at_rest (s : st L) : Prop := clean s /\ forall d tr tr2, exists d', hook s d tr tr2 = Ok d'.
End WellFormed.

(** ** Two ways to read the sorts *)
(** every draw may give anything; log-densities of distributions; tensors and floats *)
Definition any_sorts (L : lib) : sorts L :=
  mkSorts L (fun _ _ => True) (fun _ => True) (fun x => exists d v, x = logp L d v) (fun x => is_tensor L x = true) (fun _ => True).
(** tensors of N particles in each of B batch entries; the only float is 0.0 *)
Definition particle_sorts {L : lib} (W : array_view L) (N B : nat) : sorts L :=
  mkSorts L (drawn W N B) (particles W N B) (log_probs W N B) (log_weights W N B) (fun x => x = tzero L).
