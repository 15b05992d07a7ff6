(** Specification of proper weighting for populations of particles (property C59): programs
    run on tensors that hold N particles for each of B batch entries, with Resample steps. *)
From Coquelicot Require Import Coquelicot.
From Verif Require Export SpecProper SpecResample.

(** ** Python values that contain tensors *)
Fixpoint vmap {A B : Type} (f : A -> B) (v : pyval A) : pyval B :=
  match v with
  | VNone => VNone
  | VBool b => VBool b
  | VInt z => VInt z
  | VStr s => VStr s
  | VTensor t => VTensor (f t)
  | VTup l => VTup (map (vmap f) l)
  | VDict d => VDict (map (fun kv => (fst kv, vmap f (snd kv))) d)
  | VObj n => VObj n
  end.
Definition kmap {A B : Type} (f : A -> B) (d : dict (pyval A)) : dict (pyval B) :=
  map (fun kv => (fst kv, vmap f (snd kv))) d.
(** every tensor inside the value satisfies [P] *)
Fixpoint all_tensors {A : Type} (P : A -> Prop) (v : pyval A) : Prop :=
  match v with
  | VTensor t => P t
  | VTup l => fold_right and True (map (all_tensors P) l)
  | VDict d => fold_right and True (map (fun kv => all_tensors P (snd kv)) d)
  | _ => True
  end.
(** no tensor inside *)
Definition no_tensor {A : Type} (v : pyval A) : Prop := all_tensors (fun _ => False) v.

(** ** Populations
    [LV] is the library whose tensors hold all particles, [LS] the library of a single
    particle. [part s b x]: what particle [s] of batch entry [b] holds of the tensor [x];
    [dpart s b d]: the distribution it uses of the batched distribution [d];
    [mean d f]: the expectation of [f] of a draw from [d];
    [mean_offset f]: the expectation of [f] of torch.rand(B), the offsets Systematic draws. *)
Record population (LV LS : lib) : Type := mkPopulation {
  part : nat -> nat -> T LV -> T LS;
  dpart : nat -> nat -> D LV -> D LS;
  mean : D LV -> (T LV -> R) -> R;
  mean_offset : (T LV -> R) -> R }.
Arguments part {LV LS}. Arguments dpart {LV LS}. Arguments mean {LV LS}. Arguments mean_offset {LV LS}.

Section Population.
  Context {LV LS : lib} (W : array_view LV) (N B : nat) (P : population LV LS).

  (** a tensor with N particles for each of B batch entries; dimensions that follow are data *)
  Definition particles (x : T LV) : Prop := is_tensor LV x = true /\ firstn 2 (shape (to_arr W x)) = [N; B].
  (** log-probabilities: such a tensor of finite numbers; log-weights: one per particle *)
  Definition log_probs (x : T LV) : Prop :=
    particles x /\ forall i, In i (indices (shape (to_arr W x))) -> exists r, at_ (to_arr W x) i = Fin r.
  Definition log_weights (x : T LV) : Prop := log_probs x /\ shape (to_arr W x) = [N; B].
  Definition entry (s b : nat) (x : T LV) : R := fin (at_ (to_arr W x) [s; b]).
  Definition offset (b : nat) (v : T LV) : R := fin (at_ (to_arr W v) [b]).

  (** Tensors of log-weights are added and subtracted entry by entry, with the float 0.0
      neutral; a particle's part of a tensor is determined by its slice; log-probabilities
      are computed particle by particle, and summed over the data dimensions; what a
      particle holds of a draw is a draw from the distribution it uses (whether the
      particles' draws are independent does not matter), and offsets are uniform on [0,1). *)
  Record population_laws (M : measures LS) : Prop := mkPopulationLaws {
    float_zero : is_tensor LV (tzero LV) = false;
    add_weights : forall x y, log_weights x -> log_weights y -> log_weights (tadd LV x y) /\
      forall s b, s < N -> b < B -> entry s b (tadd LV x y) = (entry s b x + entry s b y)%R;
    sub_weights : forall x y, log_weights x -> log_weights y -> log_weights (tsub LV x y) /\
      forall s b, s < N -> b < B -> entry s b (tsub LV x y) = (entry s b x - entry s b y)%R;
    sub_zero : forall x, log_weights x -> log_weights (tsub LV x (tzero LV)) /\
      forall s b, s < N -> b < B -> entry s b (tsub LV x (tzero LV)) = entry s b x;
    zero_sub : forall x, log_weights x -> log_weights (tsub LV (tzero LV) x) /\
      forall s b, s < N -> b < B -> entry s b (tsub LV (tzero LV) x) = (- entry s b x)%R;
    zero_zero : tsub LV (tzero LV) (tzero LV) = tzero LV;
    no_gradient : forall x, detach LV x = x;
    slices : forall x y s s' b, particles x -> shape (to_arr W y) = shape (to_arr W x) -> s < N -> s' < N -> b < B ->
      (forall rest, In (s :: b :: rest) (indices (shape (to_arr W x))) ->
         at_ (to_arr W y) (s :: b :: rest) = at_ (to_arr W x) (s' :: b :: rest)) ->
      part P s b y = part P s' b x;
    log_prob : forall d v, particles v -> log_probs (logp LV d v) /\
      forall s b, s < N -> b < B -> part P s b (logp LV d v) = logp LS (dpart P s b d) (part P s b v);
    batch_sum : forall x, log_probs x -> log_weights (bsum LV (VInt 0) (VInt 1) x) /\
      forall s b, s < N -> b < B -> entry s b (bsum LV (VInt 0) (VInt 1) x) = lw M (part P s b x);
    mean_ext : forall d f g, (forall v, particles v -> f v = g v) -> mean P d f = mean P d g;
    mean_plus : forall d f g, mean P d (fun v => (f v + g v)%R) = (mean P d f + mean P d g)%R;
    mean_scale : forall d c f, mean P d (fun v => (c * f v)%R) = (c * mean P d f)%R;
    mean_part : forall d s b (g : T LS -> R), s < N -> b < B ->
      mean P d (fun v => g (part P s b v)) =
      integral M (space M (dpart P s b d)) (fun x => (pmass M (dpart P s b d) x * g x)%R);
    offset_ext : forall f g, (forall v, (forall b, b < B -> (0 <= offset b v < 1)%R) -> f v = g v) ->
      mean_offset P f = mean_offset P g;
    offset_uniform : forall b (g : R -> R) l, b < B -> is_RInt g 0%R 1%R l -> mean_offset P (fun v => g (offset b v)) = l }.

  (** ** Executions: draws hold all particles, offsets lie in [0,1) *)
  Definition drawn (d : draw_kind LV) (v : T LV) : Prop :=
    match d with
    | DrawDist _ _ _ => particles v
    | DrawRand => forall b, b < B -> (0 <= offset b v < 1)%R
    end.
  Inductive possible {A} : stree LV A -> A -> Prop :=
  | poss_leaf a : possible (Leaf a) a
  | poss_draw d k v a : drawn d v -> possible (k v) a -> possible (Draw d k) a.

  (** the expectation of [f] over all random draws of a run *)
  Fixpoint expectation {A} (t : stree LV A) (f : A -> R) : R :=
    match t with
    | Leaf a => f a
    | Draw (DrawDist d _ _) k => mean P d (fun v => expectation (k v) f)
    | Draw DrawRand k => mean_offset P (fun v => expectation (k v) f)
    end.

  (** ** Batched programs
      [copies_model s b m m1]: on particle [s] of batch entry [b], the batched model [m] does
      what the single-particle model [m1] does. *)
  Inductive copies_model (s b : nat) : model LV -> model LS -> Prop :=
  | copies_ret o : all_tensors particles o -> copies_model s b (MRet o) (MRet (vmap (part P s b) o))
  | copies_sample a d rep k k1 :
      (forall v, particles v -> copies_model s b (k v) (k1 (part P s b v))) ->
      copies_model s b (MVar a d None rep k) (MVar a (dpart P s b d) None rep k1)
  | copies_observe a d v rep k k1 : particles v ->
      (forall w, particles w -> copies_model s b (k w) (k1 (part P s b w))) ->
      copies_model s b (MVar a d (Some (v, None)) rep k) (MVar a (dpart P s b d) (Some (part P s b v, None)) rep k1).

  (** [copies t t1]: [t] is the single-particle program [t1] with every model batched; its
      Resample steps use the default resampler. *)
  Inductive copies : inf LV -> inf LS -> Prop :=
  | copies_prog oid sg m m1 :
      (forall s b c kws, s < N -> b < B -> all_tensors particles c ->
         copies_model s b (m c kws) (m1 (vmap (part P s b) c) (kmap (part P s b) kws))) ->
      copies (IProg oid sg m) (IProg oid sg m1)
  | copies_extend oid p p1 f f1 o o1 : copies p p1 -> copies f f1 ->
      no_tensor (in_ix o) -> in_ix o1 = vmap (part P 0 0) (in_ix o) ->
      copies (IExtend oid p f o) (IExtend oid p1 f1 o1)
  | copies_compose oid q2 q21 q1 q11 o o1 : copies q2 q21 -> copies q1 q11 ->
      no_tensor (in_ix o) -> in_ix o1 = vmap (part P 0 0) (in_ix o) ->
      copies (ICompose oid q2 q1 o) (ICompose oid q21 q11 o1)
  | copies_propose oid p p1 q q1 o o1 nr : copies p p1 -> copies q q1 ->
      no_tensor (in_ix o) -> in_ix o1 = vmap (part P 0 0) (in_ix o) ->
      copies (IPropose oid p q o None nr) (IPropose oid p1 q1 o1 None nr)
  | copies_resample oid q q1 ix ix1 l0 l01 rs1 dbg dbg1 : copies q q1 ->
      no_tensor ix -> ix1 = vmap (part P 0 0) ix ->
      copies (IResample oid q ix l0 (systematic W false) dbg) (IResample oid q1 ix1 l01 rs1 dbg1).

  (** the values of particle [s] of batch entry [b], by address *)
  Definition particle_values (s b : nat) (tr : trace LV) : list (string * T LS) :=
    map (fun ar => (fst ar, part P s b (rv_value (snd ar)))) tr.
  (** its log-weight: an entry of the tensor, or the float 0.0 *)
  Definition particle_weight (s b : nat) (x : T LV) : R := if is_tensor LV x then entry s b x else 0%R.

  (** the average, over the particles of batch entry [b], of exp(log_weight) times a
      function of the particle's values and output *)
  Definition weighted_average (b : nat) (h : list (string * T LS) -> pyval (T LS) -> R) (x : res (out LV) * st LV) : R :=
    match fst x with
    | Ok o => (rsum (map (fun s => exp (particle_weight s b (out_lw o)) *
                                    h (particle_values s b (out_trace o)) (vmap (part P s b) (out_output o)))
                      (seq 0 N)) / INR N)%R
    | Err _ => 0%R
    end.
End Population.

(** ** Which single-particle programs are covered *)
Section Covered.
  Context {LS : lib} (M : measures LS).

  (** an execution of a model: the values of all variables by address, and the result *)
  Inductive execution : model LS -> list (string * T LS) -> pyval (T LS) -> Prop :=
  | ex_ret o : execution (MRet o) [] o
  | ex_sample a d rep k v l o : execution (k v) l o -> execution (MVar a d None rep k) ((a, v) :: l) o
  | ex_observe a d v p rep k l o : execution (k v) l o -> execution (MVar a d (Some (v, p)) rep k) ((a, v) :: l) o.

  (** the model returns a dict whose entries are values of its variables under their
      addresses, or contain no tensor *)
  Definition echoes (m : model LS) : Prop :=
    forall l o, execution m l o -> exists d, o = VDict d /\
      forall k v, In (k, v) d -> (exists x, In (k, x) l /\ v = VTensor x) \/ ~ In k (map fst l) /\ no_tensor v.

  (** Programs; Compose with a Program; Propose, as in [weightable]; and Resample of a program
      that observes nothing in the trace it hands over, and echoes its variables. *)
  Fixpoint smc (sp : string -> Sp M) (t : inf LS) (c : pyval (T LS)) (kws : dict (pyval (T LS))) : Prop :=
    match t with
    | IProg _ sg m => pure M sp (m c (prog_kwargs sg kws))
    | IResample _ q ix _ _ _ =>
        smc sp q c (sub_kwargs ix kws) /\ (forall a, ~ observes (target q c (sub_kwargs ix kws)) a) /\
        echoes (target q c (sub_kwargs ix kws))
    | ICompose _ (IProg oid sg m) q1 o =>
        smc sp q1 c (sub_kwargs (in_ix o) kws) /\
        forall c1, returns_value (target q1 c (sub_kwargs (in_ix o) kws)) c1 ->
          pure M sp (m c1 (prog_kwargs sg (sub_kwargs (in_ix o) kws)))
    | IPropose _ p q o tf _ =>
        tf = None /\ smc sp q c (sub_kwargs (in_ix o) kws) /\
        exists C, NoDup C /\ target_ok M sp C p c (sub_kwargs (in_ix o) kws) /\
          always_samples C C (target q c (sub_kwargs (in_ix o) kws)) /\
          always_samples C C (target p c (sub_kwargs (in_ix o) kws)) /\
          forall a, samples (target q c (sub_kwargs (in_ix o) kws)) a \/ observes (target q c (sub_kwargs (in_ix o) kws)) a ->
                    samples (target p c (sub_kwargs (in_ix o) kws)) a -> In a C
    | _ => False
    end.
End Covered.
