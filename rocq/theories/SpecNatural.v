(** Specification of property C93: the combinators treat addresses and tensors abstractly.

    Two programs, written with two libraries (or the same one twice), are related when every
    piece of user code in them takes related arguments to related results.  Addresses are
    related by a renaming [ren]; tensors by relations that the library operations respect. *)
From Verif Require Export Spec.

(** What the two sides have in common: [ren] renames addresses; [r_value], [r_logp], [r_weight],
    [r_loss], [r_px], [r_rand] relate values of variables, log-probabilities, log-weights, losses, the
    detached weights kept for the objectives and the results of torch.rand; [r_dist] relates
    distributions; [r_call] says with which sample_dims, batch_dim and reparameterized the programs
    are called. *)
Record relations (L L' : lib) : Type := mkRelations {
  ren : string -> string;
  r_value : T L -> T L' -> Prop; r_logp : T L -> T L' -> Prop; r_weight : T L -> T L' -> Prop;
  r_loss : T L -> T L' -> Prop; r_px : T L -> T L' -> Prop; r_rand : T L -> T L' -> Prop;
  r_dist : D L -> D L' -> Prop;
  r_call : pyval (T L) -> pyval (T L) -> pyval (T L) -> Prop }.
Arguments ren {L L'}. Arguments r_value {L L'}. Arguments r_logp {L L'}. Arguments r_weight {L L'}.
Arguments r_loss {L L'}. Arguments r_px {L L'}. Arguments r_rand {L L'}. Arguments r_dist {L L'}. Arguments r_call {L L'}.

Definition opt_rel {A B} (R : A -> B -> Prop) (x : option A) (y : option B) : Prop :=
  match x, y with Some a, Some b => R a b | None, None => True | _, _ => False end.
(** whenever the left side returns, so does the right side, with a related value *)
Definition res_rel {A B} (R : A -> B -> Prop) (x : res A) (y : res B) : Prop :=
  forall a, x = Ok a -> exists b, y = Ok b /\ R a b.

Section Natural.
  Context {L L' : lib} (K : relations L L').

  (** dicts with renamed keys, in the same order *)
  Definition dict_rel {A B} (R : A -> B -> Prop) (d : dict A) (d' : dict B) : Prop :=
    Forall2 (fun kv kv' => fst kv' = ren K (fst kv) /\ R (snd kv) (snd kv')) d d'.
  (** values passed between programs; the keys of dicts are renamed like addresses *)
  Inductive val_rel : pyval (T L) -> pyval (T L') -> Prop :=
  | vr_none : val_rel VNone VNone
  | vr_bool b : val_rel (VBool b) (VBool b)
  | vr_int z : val_rel (VInt z) (VInt z)
  | vr_str s : val_rel (VStr s) (VStr s)
  | vr_tensor x x' : r_value K x x' -> val_rel (VTensor x) (VTensor x')
  | vr_tup l l' : Forall2 val_rel l l' -> val_rel (VTup l) (VTup l')
  | vr_dict d d' : Forall2 (fun kv kv' => fst kv' = ren K (fst kv) /\ val_rel (snd kv) (snd kv')) d d' -> val_rel (VDict d) (VDict d')
  | vr_obj n : val_rel (VObj n) (VObj n).
  (** keyword arguments: parameter names are not addresses *)
  Definition kw_rel (d : dict (pyval (T L))) (d' : dict (pyval (T L'))) : Prop :=
    Forall2 (fun kv kv' => fst kv' = fst kv /\ val_rel (snd kv) (snd kv')) d d'.

  (** ** What the relations have to respect *)
  Record respected : Prop := mkRespected {
    rs_inj : forall a b, ren K a = ren K b -> a = b;
    rs_zero : r_weight K (tzero L) (tzero L');
    rs_zero_loss : r_loss K (tzero L) (tzero L');
    rs_add : forall x x' y y', r_weight K x x' -> r_weight K y y' -> r_weight K (tadd L x y) (tadd L' x' y');
    rs_sub : forall x x' y y', r_weight K x x' -> r_weight K y y' -> r_weight K (tsub L x y) (tsub L' x' y');
    rs_detach : forall x x', r_value K x x' -> r_value K (detach L x) (detach L' x');
    rs_detach_w : forall x x', r_weight K x x' -> r_weight K (detach L x) (detach L' x');
    rs_tensor : forall x x', r_weight K x x' -> is_tensor L x = true -> is_tensor L' x' = true;
    rs_px : forall x x', r_weight K x x' ->
      r_px K (if is_tensor L x then detach L x else to_tensor L x) (if is_tensor L' x' then detach L' x' else to_tensor L' x');
    rs_eq_zero : forall x x', r_weight K x x' -> eq_zero L x = Ok true -> eq_zero L' x' = Ok true;
    rs_bsum : forall sd sd' bd bd' rep x x', r_call K sd bd rep -> val_rel sd sd' -> val_rel bd bd' -> r_logp K x x' ->
       r_weight K (bsum L sd bd x) (bsum L' sd' bd' x');
    rs_logp : forall d d' v v', r_dist K d d' -> r_value K v v' -> r_logp K (logp L d v) (logp L' d' v');
    rs_lj : forall sd bd rep rep' b p, r_call K sd bd rep -> val_rel rep rep' -> lj_ok L rep b p = true -> lj_ok L' rep' b p = true }.

  (** ** Variables, traces, results *)
  Definition den_rel (x : density L) (y : density L') : Prop :=
    match x, y with
    | Proper d, Proper d' => r_dist K d d'
    | Improper f, Improper f' => forall v v', r_value K v v' -> r_logp K (f v) (f' v')
    | OtherRV, OtherRV => True
    | _, _ => False
    end.
  Record rv_rel (x : rv L) (y : rv L') : Prop := mkRvRel {
    rr_den : den_rel (rv_den x) (rv_den y);
    rr_value : r_value K (rv_value x) (rv_value y);
    rr_logp : r_logp K (rv_logp x) (rv_logp y);
    rr_prov : rv_prov x = rv_prov y; rr_rep : rv_rep x = rv_rep y; rr_resamplable : rv_resamplable x = rv_resamplable y }.
  Definition trace_rel : trace L -> trace L' -> Prop := dict_rel rv_rel.
  Record px_rel (x : pextras L) (y : pextras L') : Prop := mkPxRel {
    pr_nodes : px_nodes y = map (ren K) (px_nodes x);
    pr_lv : r_weight K (px_lv x) (px_lv y); pr_lw : r_px K (px_lw x) (px_lw y);
    pr_proposal : trace_rel (px_proposal_trace x) (px_proposal_trace y);
    pr_target : trace_rel (px_target_trace x) (px_target_trace y);
    pr_forward : opt_rel trace_rel (px_forward_trace x) (px_forward_trace y) }.
  Inductive out_rel : out L -> out L' -> Prop :=
  | or_out tr tr' w w' c c' ty ix ix' l l' m m' px px' subs subs' :
      trace_rel tr tr' -> r_weight K w w' -> val_rel c c' -> opt_rel val_rel ix ix' -> opt_rel (r_loss K) l l' ->
      opt_rel (fun a b => fst b = map (ren K) (fst a) /\ val_rel (snd a) (snd b)) m m' -> opt_rel px_rel px px' ->
      Forall2 (fun ko ko' => fst ko' = fst ko /\ out_rel (snd ko) (snd ko')) subs subs' ->
      out_rel (mkOut tr w c ty ix l m px subs) (mkOut tr' w' c' ty ix' l' m' px' subs').
  (** states: what is conditioned, the global store (keyed by addresses) and its hook *)
  Record st_rel (s : st L) (s' : st L') : Prop := mkStRel {
    sr_conds : forall i, opt_rel trace_rel (get_cond i s) (get_cond i s');
    sr_store : dict_rel val_rel (store s) (store s');
    sr_hook : forall d d' a a' b b', dict_rel val_rel d d' -> trace_rel a a' -> trace_rel b b' ->
      res_rel (dict_rel val_rel) (hook s d a b) (hook s' d' a' b') }.

  (** ** Runs
      [drawn_rel d v v']: draws the two sides may make; [kind_rel d d']: from what. *)
  Definition drawn_rel (d : draw_kind L) (v : T L) (v' : T L') : Prop :=
    match d with DrawDist _ _ _ => r_value K v v' | DrawRand => r_rand K v v' end.
  Definition kind_rel (d : draw_kind L) (d' : draw_kind L') : Prop :=
    match d, d' with
    | DrawDist a rep sh, DrawDist a' rep' sh' => r_dist K a a' /\ rep' = rep /\ val_rel sh sh'
    | DrawRand, DrawRand => True
    | _, _ => False
    end.
  (** [mirrors R t t']: on related draws, where [t] returns so does [t'], and the results are related *)
  Inductive mirrors {A B} (fails : A -> Prop) (R : A -> B -> Prop) : stree L A -> stree L' B -> Prop :=
  | mi_fail a t' : fails a -> mirrors fails R (Leaf a) t'
  | mi_leaf a b : R a b -> mirrors fails R (Leaf a) (Leaf b)
  | mi_draw d d' k k' : kind_rel d d' -> (forall v v', drawn_rel d v v' -> mirrors fails R (k v) (k' v')) ->
      mirrors fails R (Draw d k) (Draw d' k').

  (** ** Programs *)
  Inductive model_rel : model L -> model L' -> Prop :=
  | mr_ret o o' : val_rel o o' -> model_rel (MRet o) (MRet o')
  | mr_raise e m' : model_rel (MRaise e) m'
  | mr_var a d d' x x' rep k k' : r_dist K d d' ->
      opt_rel (fun vp vp' => r_value K (fst vp) (fst vp') /\ snd vp' = snd vp) x x' ->
      (forall v v', r_value K v v' -> model_rel (k v) (k' v')) ->
      model_rel (MVar a d x rep k) (MVar (ren K a) d' x' rep k')
  | mr_inject a r r' k k' : rv_rel r r' -> model_rel k k' -> model_rel (MInject a r k) (MInject (ren K a) r' k')
  | mr_cond k k' : (forall x x', opt_rel trace_rel x x' -> model_rel (k x) (k' x')) -> model_rel (MCond k) (MCond k')
  | mr_trace k k' : (forall x x', trace_rel x x' -> model_rel (k x) (k' x')) -> model_rel (MTrace k) (MTrace k')
  | mr_draw d d' rep sh sh' k k' : r_dist K d d' -> val_rel sh sh' ->
      (forall v v', r_value K v v' -> model_rel (k v) (k' v')) -> model_rel (MDraw d rep sh k) (MDraw d' rep sh' k')
  | mr_get a k k' : (forall x x', opt_rel val_rel x x' -> model_rel (k x) (k' x')) -> model_rel (MGetStore a k) (MGetStore (ren K a) k')
  | mr_set a v v' k k' : val_rel v v' -> model_rel k k' -> model_rel (MSetStore a v k) (MSetStore (ren K a) v' k').

  Record opts_rel (o : infopts L) (o' : infopts L') : Prop := mkOptsRel {
    op_loss : forall r r' l l', out_rel r r' -> r_loss K l l' -> res_rel (r_loss K) (in_loss o r l) (in_loss o' r' l');
    op_loss0 : opt_rel (r_loss K) (in_loss0 o) (in_loss0 o');
    op_ix : val_rel (in_ix o) (in_ix o');
    op_debug : in_debug o' = in_debug o }.
  (** Resample passes the dims of its own call on to the resampler *)
  Definition passed (kws : dict (pyval (T L))) : Prop :=
    exists sd bd rep, r_call K sd bd rep /\ (forall v, dget "sample_dims" kws = Some v -> v = sd) /\ (forall v, dget "batch_dim" kws = Some v -> v = bd).
  Definition resampler_rel (r : resampler L) (r' : resampler L') : Prop :=
    rs_sig r' = rs_sig r /\
    forall tr tr' w w' kws kws', passed kws -> trace_rel tr tr' -> r_weight K w w' -> kw_rel kws kws' ->
      mirrors (fun x => exists e, x = Err e) (res_rel (fun a b => trace_rel (fst a) (fst b) /\ r_weight K (snd a) (snd b)))
        (rs_call r tr w kws) (rs_call r' tr' w' kws').
  Definition transf_rel (f : transf L) (f' : transf L') : Prop :=
    tf_sig f' = tf_sig f /\
    forall tr tr' kws kws', trace_rel tr tr' -> kw_rel kws kws' -> res_rel trace_rel (tf_call f tr kws) (tf_call f' tr' kws').
  (** the same combinators around related user code *)
  Inductive inf_rel : inf L -> inf L' -> Prop :=
  | ir_prog oid sg m m' : (forall c c' kws kws', val_rel c c' -> kw_rel kws kws' -> model_rel (m c kws) (m' c' kws')) ->
      inf_rel (IProg oid sg m) (IProg oid sg m')
  | ir_resample oid q q' ix ix' l l' r r' dbg : inf_rel q q' -> val_rel ix ix' -> opt_rel (r_loss K) l l' -> resampler_rel r r' ->
      inf_rel (IResample oid q ix l r dbg) (IResample oid q' ix' l' r' dbg)
  | ir_extend oid p p' f f' o o' : inf_rel p p' -> inf_rel f f' -> opts_rel o o' -> inf_rel (IExtend oid p f o) (IExtend oid p' f' o')
  | ir_compose oid p p' f f' o o' : inf_rel p p' -> inf_rel f f' -> opts_rel o o' -> inf_rel (ICompose oid p f o) (ICompose oid p' f' o')
  | ir_propose oid p p' f f' o o' tf tf' nr : inf_rel p p' -> inf_rel f f' -> opts_rel o o' -> opt_rel transf_rel tf tf' ->
      inf_rel (IPropose oid p f o tf nr) (IPropose oid p' f' o' tf' nr).
  (** the keyword arguments of a call: dims and reparameterized as [r_call] says, no name twice *)
  Definition called (kws : dict (pyval (T L))) : Prop :=
    wf_dict kws /\ r_call K (kwarg "sample_dims" VNone kws) (kwarg "batch_dim" VNone kws) (kwarg "reparameterized" (VBool true) kws).
End Natural.

(** ** C93: renaming addresses, everything else being equal *)
Definition plain_value {A} (v : pyval A) : Prop := match v with VNone | VBool _ | VInt _ | VStr _ => True | _ => False end.
Definition renaming (L : lib) (f : string -> string) : relations L L :=
  mkRelations L L f eq eq eq eq eq eq eq (fun sd bd rep => plain_value sd /\ plain_value bd /\ plain_value rep).

(** ** C94: two runs that look alike to particle [s] of batch entry [b] *)
From Verif Require Import SpecParticles.
Definition seen_by_particle {LV LS : lib} (W : array_view LV) (N B : nat) (P : population LV LS) (s b : nat) : relations LV LV :=
  mkRelations LV LV (fun a => a)
    (fun x x' => particles W N B x /\ particles W N B x' /\ part P s b x = part P s b x')
    (fun x x' => log_probs W N B x /\ log_probs W N B x' /\ part P s b x = part P s b x')
    (fun x x' => (x = tzero LV /\ x' = tzero LV) \/
       (log_weights W N B x /\ log_weights W N B x' /\ entry W s b x = entry W s b x'))
    (fun _ _ => True) (fun _ _ => True) (fun _ _ => False)
    (fun d d' => dpart P s b d = dpart P s b d')
    (fun sd bd rep => sd = VInt 0 /\ bd = VInt 1 /\ plain_value rep).

(** ** C96: a run on all particles, and the run of a single one
    particle [s] of batch entry [b] on the left, the single-particle library on the right *)
Definition particle_alone {LV LS : lib} (W : array_view LV) (N B : nat) (P : population LV LS) (M : measures LS) (s b : nat) : relations LV LS :=
  mkRelations LV LS (fun a => a)
    (fun x x' => particles W N B x /\ x' = part P s b x)
    (fun x x' => log_probs W N B x /\ x' = part P s b x)
    (fun x x' => (x = tzero LV /\ x' = tzero LS) \/
       (log_weights W N B x /\ is_tensor LS x' = true /\ lw M x' = entry W s b x))
    (fun _ _ => True) (fun _ _ => True) (fun _ _ => False)
    (fun d d' => d' = dpart P s b d)
    (fun sd bd rep => sd = VInt 0 /\ bd = VInt 1 /\ exists r, rep = VBool r).
(** what is asked of the single-particle library: sums with a tensor are tensors, and 0.0 is a
    number that is equal to 0.0 *)
Record single_laws (LV LS : lib) : Prop := mkSingleLaws {
  sl_zero : tadd LS (tzero LS) (tzero LS) = tzero LS /\ tsub LS (tzero LS) (tzero LS) = tzero LS;
  sl_add : forall x y, is_tensor LS x = true \/ is_tensor LS y = true -> is_tensor LS (tadd LS x y) = true /\ is_tensor LS (tsub LS x y) = true;
  sl_bsum : forall sd bd x, is_tensor LS (bsum LS sd bd x) = true;
  sl_eq_zero : eq_zero LV (tzero LV) = Ok true -> eq_zero LS (tzero LS) = Ok true;
  sl_lj : forall r b p, lj_ok LV (VBool r) b p = true -> lj_ok LS (VBool r) b p = true }.

(** ** C97: a run on a population, and the run on a population chosen from it
    particle [s'] of batch entry [b'] on the right is the one [from s' b'] on the left *)
Definition chosen_from {LV LS : lib} (W : array_view LV) (N B : nat) (P : population LV LS) (N' B' : nat) (P' : population LV LS) (from : nat -> nat -> nat * nat) : relations LV LV :=
  let chosen {A} (f' : nat -> nat -> A) (f : nat -> nat -> A) := forall s' b', s' < N' -> b' < B' -> f' s' b' = f (fst (from s' b')) (snd (from s' b')) in
  mkRelations LV LV (fun a => a)
    (fun x x' => particles W N B x /\ particles W N' B' x' /\ chosen (fun s b => part P' s b x') (fun s b => part P s b x))
    (fun x x' => log_probs W N B x /\ log_probs W N' B' x' /\ chosen (fun s b => part P' s b x') (fun s b => part P s b x))
    (fun x x' => (x = tzero LV /\ x' = tzero LV) \/
       (log_weights W N B x /\ log_weights W N' B' x' /\ chosen (fun s b => entry W s b x') (fun s b => entry W s b x)))
    (fun _ _ => True) (fun _ _ => True)
    (fun v v' => drawn W N B DrawRand v /\ drawn W N' B' DrawRand v' /\ chosen (fun _ b => offset W b v') (fun _ b => offset W b v))
    (fun d d' => chosen (fun s b => dpart P' s b d') (fun s b => dpart P s b d))
    (fun sd bd rep => sd = VInt 0 /\ bd = VInt 1 /\ plain_value rep).

(** ** C95: two runs that differ in gradients only *)
Definition same_numbers (L : lib) : relations L L :=
  let same := fun x y => detach L x = detach L y in
  mkRelations L L (fun a => a) same same same same same same (fun d d' => forall v v', same v v' -> same (logp L d v) (logp L d' v'))
    (fun sd bd rep => plain_value sd /\ plain_value bd /\ plain_value rep).
(** numbers are computed from numbers: gradients flow in the other direction *)
Record value_laws (L : lib) : Prop := mkValueLaws {
  vl_add : forall x y, detach L (tadd L x y) = tadd L (detach L x) (detach L y);
  vl_sub : forall x y, detach L (tsub L x y) = tsub L (detach L x) (detach L y);
  vl_detach : forall x, detach L (detach L x) = detach L x;
  vl_tensor : forall x, is_tensor L (detach L x) = is_tensor L x;
  vl_to_tensor : forall x, detach L (to_tensor L x) = to_tensor L (detach L x);
  vl_zero : forall x, eq_zero L (detach L x) = eq_zero L x;
  vl_bsum : forall sd bd x, detach L (bsum L sd bd x) = bsum L sd bd (detach L x) }.
