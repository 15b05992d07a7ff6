(** Model of the amortised-Gibbs experiment: /repo/experiments/apgs/utils.py, models.py,
    objectives.py, gibbs.py. *)
From Verif Require Export Inference Utils OutDict.

(** an int in an f-string *)
Definition show_z (z : Z) : string :=
  if (z <? 0)%Z then ("-" ++ show (Z.to_nat (- z)))%string else show (Z.to_nat z).

(** key.z_where, key.z_what with both arguments given, /repo/experiments/apgs/utils.py:49-58 *)
Definition z_where (t sweep : Z) : string := ("z_where_" ++ show_z t ++ "_" ++ show_z sweep)%string.
Definition z_what (sweep : Z) : string := ("z_what_" ++ show_z sweep)%string.

(** _resample_hook, /repo/experiments/apgs/utils.py:24-32, over traces given by their values.
    [deref r]: [None] when [r] is not a weak reference, [Some w] when it is and [r()] is [w]
    (itself [None] when the object is gone); [same]: Python's [is]; [mkref]: weakref.ref. *)
Definition hook_step {V W} (deref : V -> option (option W)) (same : W -> W -> bool) (mkref : W -> V)
  (tr retr : dict W) (gs : dict V) (k : string) : dict V :=
  match dget k gs, dget k retr, dget k tr with
  | Some r, Some v', Some v =>
      match deref r with
      | Some (Some w) => if same w v then dset k (mkref v') gs else gs
      | _ => gs
      end
  | _, _, _ => gs
  end.
Definition resample_hook {V W} (deref : V -> option (option W)) (same : W -> W -> bool) (mkref : W -> V)
  (gs : dict V) (tr retr : dict W) : dict V :=
  fold_left (hook_step deref same mkref tr retr) (dkeys tr) gs.

(** What the store holds, when object identities matter: a weak reference to an object, to an object
    that is gone, or something else. *)
Inductive sref : Type := Weak (obj : nat) | Dead | Strong (n : nat).
Definition sref_deref (r : sref) : option (option nat) :=
  match r with Weak i => Some (Some i) | Dead => Some None | Strong _ => None end.
(** _pre_set_hook, /repo/experiments/apgs/utils.py:38-39 *)
Definition pre_set_hook (gs : dict sref) (k : string) (v : sref) : hook_result (V := sref) :=
  (gs, match v with Strong _ => Err AssertionError | _ => Ok None end).
(** The global store after importing the module, /repo/experiments/apgs/utils.py:35,42.  The item
    assignments of the resample hook pass the pre-set hook, since they store weak references. *)
Definition apg_store : gstore (V := sref) (TR := dict nat) :=
  fst (set_hook "pre_set" (H3 pre_set_hook)
      (fst (set_hook "resample_update"
        (HR (fun gs tr retr => (resample_hook sref_deref Nat.eqb Weak gs tr retr, Ok None))) new_store))).

(** The same hook on the store of a run (Program.v), whose weak references are modelled by the
    tensors they refer to. *)
Definition apg_hook {L : lib} (same : T L -> T L -> bool) (gs : dict (pyval (T L))) (tr retr : trace L) : res (dict (pyval (T L))) :=
  let values (t : trace L) : dict (T L) := map (fun kv => (fst kv, rv_value (snd kv))) t in
  Ok (resample_hook (fun v => match v with VTensor t => Some (Some t) | _ => None end) same VTensor gs (values tr) (values retr)).

Section Models.
  Context (L : lib).
  Notation T := (T L). Notation D := (D L). Notation pyval := (pyval T). Notation model := (model L).
  Notation out := (out L). Notation inf := (inf L). Notation trace := (trace L).

  (** apg_ix, /repo/experiments/apgs/utils.py:65, as it arrives at a model; reading a field of
      anything else is an AttributeError *)
  Definition apg_ix (t sweep : Z) (dir : string) : pyval := VTup [VInt t; VInt sweep; VStr dir].
  Definition of_ix {A} (v : pyval) (k : Z -> Z -> string -> A) (other : A) : A :=
    match v with VTup [VInt t; VInt s; VStr d] => k t s d | _ => other end.
  (** check_dir and is_forward, /repo/experiments/apgs/utils.py:68-75 *)
  Definition is_forward (dir : string) : res bool :=
    if mem dir ["forward"; "reverse"] then Ok (String.eqb dir "forward") else Err ValueError.

  Definition of_res {A} (r : res A) (k : A -> model) : model := match r with Ok a => k a | Err e => MRaise e end.
  (** [c[k]] used as a tensor *)
  Definition item (c : pyval) (k : string) : res T :=
    match c with
    | VDict d => match dget k d with Some (VTensor v) => Ok v | Some _ => Err AttributeError | None => Err KeyError end
    | _ => Err TypeError
    end.
  (** [global_store[k]()]; a weak reference is modelled by the tensor it refers to, which is
      assumed to be alive *)
  Definition stored (k : string) (f : T -> model) : model :=
    MGetStore k (fun v => match v with
                          | Some (VTensor x) => f x
                          | Some _ => MRaise TypeError
                          | None => MRaise KeyError end).

  (** The numerical parts: the networks and priors.  [n_frames]: frames.shape[2]; [n_objects]: K;
      [coor_obj]: the distribution of one object's position given the frames, the convolution
      kernel ([None]: mean_shape; [Some z_what]: decoded), the time step and the positions of the
      objects before it; [coor_cat], [coor_slice]: assembling K positions in one tensor and
      slicing them; [coor_all]: Normal(q_mean, q_std); [digit_all]: the distribution of z_what given
      frames and all z_where; the priors; [recon]: the likelihood of the frames. *)
  Record nets : Type := mkNets {
    n_frames : T -> nat; n_objects : nat;
    coor_obj : T -> option T -> Z -> list T -> D; coor_cat : list T -> T; coor_slice : T -> nat -> T;
    coor_all : T -> option T -> Z -> list T -> D;
    digit_all : T -> list T -> D;
    prior_where0 : D; prior_wheret : T -> D; prior_what : D;
    recon : list T -> T -> D;
    reparam : bool }.
  Context (N : nets).

  Fixpoint draw_objects (d : list T -> D) (n : nat) (acc : list T) (k : list T -> model) : model :=
    match n with
    | O => k acc
    | S n' => MDraw (d acc) false VNone (fun v => draw_objects d n' (acc ++ [v]) k)
    end.

  (** Enc_coor.model, /repo/experiments/apgs/models.py:110-201.  The direction is checked before
      the loop over objects (there is at least one); a negative time step, which Python would
      count from the end, is an IndexError here. *)
  Definition enc_coor_model (c : pyval) (kws : dict pyval) : model :=
    of_ix (kwarg "ix" VNone kws) (fun t sweep dir =>
      of_res (item c "frames") (fun frames =>
      of_res (if Z.eqb sweep 0 then Ok None else rmap Some (item c (z_what (sweep - 1)))) (fun kernel =>
      if (Z.ltb t 0 || Z.leb (Z.of_nat (n_frames N frames)) t)%bool then MRaise IndexError else
      of_res (is_forward dir) (fun fwd =>
      if fwd then
        draw_objects (coor_obj N frames kernel t) (n_objects N) [] (fun zs =>
        MVar (z_where t sweep) (coor_all N frames kernel t zs) (Some (coor_cat N zs, Some SAMPLED)) (reparam N) (fun _ =>
        MSetStore (z_where t sweep) (VTensor (coor_cat N zs))
          (MRet (if Z.eqb sweep 0
                 then match c with VDict d => VDict (dset (z_where t sweep) (VTensor (coor_cat N zs)) d) | _ => c end
                 else c))))
      else
        MCond (fun cond =>
          match cond with
          | None => MRaise TypeError
          | Some ct =>
              match dget (z_where t (sweep - 1)) ct with
              | None => MRaise KeyError
              | Some r =>
                  let zs := map (coor_slice N (rv_value r)) (seq 0 (n_objects N)) in
                  MVar (z_where t (sweep - 1)) (coor_all N frames kernel t zs) None (reparam N) (fun _ => MRet VNone)
              end
          end)))))
      (MRaise AttributeError).

  Fixpoint items_of (c : pyval) (ks : list string) : res (list T) :=
    match ks with [] => Ok [] | k :: ks' => rbind (item c k) (fun v => rmap (cons v) (items_of c ks')) end.

  (** Enc_digit.model, /repo/experiments/apgs/models.py:229-258 *)
  Definition enc_digit_model (c : pyval) (kws : dict pyval) : model :=
    of_ix (kwarg "ix" VNone kws) (fun t sweep dir =>
      of_res (item c "frames") (fun frames =>
      of_res (item c (z_where 0 sweep)) (fun _ =>
      of_res (items_of c (map (fun i => z_where (Z.of_nat i) sweep) (seq 0 (n_frames N frames)))) (fun wheres =>
      of_res (is_forward dir) (fun fwd =>
      let sweep_ix := if fwd then sweep else (sweep - 1)%Z in
      MVar (z_what sweep_ix) (digit_all N frames wheres) None (reparam N) (fun z =>
      if fwd then MSetStore (z_what sweep_ix) (VTensor z) (MRet VNone) else MRet VNone))))))
      (MRaise AttributeError).

  (** One step of the loop of _Decoder.get_z_where, /repo/experiments/apgs/models.py:313-345: the
      name of the site and where the location of its prior comes from ([None]: prior_where0). *)
  Definition where_site (ix_t sweep : Z) (t : nat) : string * option string :=
    let t := Z.of_nat t in
    if Z.leb t ix_t
    then (z_where t sweep, if Z.eqb t 0 then None else Some (z_where (t - 1) sweep))
    else if Z.eqb t (ix_t + 1) then (z_where t (sweep - 1), Some (z_where ix_t sweep))
    else (z_where t (sweep - 1), Some (z_where ix_t sweep)).
  Fixpoint get_z_where (sites : list (string * option string)) (acc : list T) (k : list T -> model) : model :=
    match sites with
    | [] => k acc
    | (name, None) :: sites' =>
        MVar name (prior_where0 N) None (reparam N) (fun v => get_z_where sites' (acc ++ [v]) k)
    | (name, Some key) :: sites' =>
        stored key (fun loc => MVar name (prior_wheret N loc) None (reparam N) (fun v => get_z_where sites' (acc ++ [v]) k))
    end.
  (** _Decoder.get_z_what_val: the index, /repo/experiments/apgs/models.py:347-357 *)
  Definition what_index (T_ : nat) (ix_t sweep : Z) : res Z :=
    if Z.eqb ix_t (Z.of_nat T_) then Ok sweep
    else if (Z.ltb ix_t (Z.of_nat T_) && Z.ltb 0 sweep)%bool then Ok (sweep - 1)%Z
    else Err ValueError.
  Fixpoint read_stored (ks : list string) (acc : dict pyval) (k : dict pyval -> model) : model :=
    match ks with
    | [] => k acc
    | key :: ks' => stored key (fun v => read_stored ks' (dset key (VTensor v) acc) k)
    end.
  (** DecoderFull.model, /repo/experiments/apgs/models.py:368-398 *)
  Definition dec_model (c : pyval) (kws : dict pyval) : model :=
    of_ix (kwarg "ix" VNone kws) (fun ix_t sweep dir =>
      of_res (item c "frames") (fun frames =>
      let T_ := n_frames N frames in
      get_z_where (map (where_site ix_t sweep) (seq 0 T_)) [] (fun wheres =>
      of_res (what_index T_ ix_t sweep) (fun zi =>
      MVar (z_what zi) (prior_what N) None (reparam N) (fun what =>
      MVar "recon" (recon N wheres what) (Some (frames, Some OBSERVED)) (reparam N) (fun _ =>
      read_stored (map (fun i => z_where (Z.of_nat i) sweep) (seq 0 (Nat.min (Z.to_nat (ix_t + 1)) T_))) [] (fun z_wheres =>
      MRet (VDict (dset "frames" (VTensor frames) (dset (z_what zi) (VTensor what) z_wheres))))))))))
      (MRaise AttributeError).
  (** Noop.model, /repo/experiments/apgs/gibbs.py:20-27 *)
  Definition noop_model (c : pyval) (kws : dict pyval) : model := MRet c.

  Definition enc_sig : sig := mkSig ["self"; "trace"; "c"; "ix"] [] false.
  Definition enc_coor : inf := IProg 1 enc_sig enc_coor_model.
  Definition enc_digit : inf := IProg 2 enc_sig enc_digit_model.
  Definition dec : inf := IProg 3 (mkSig ["self"; "trace"; "c"; "ix"; "EPS"] [] false) dec_model.
  Definition noop : inf := IProg 0 (mkSig ["self"; "trace"; "c"] [] false) noop_model.

  (** loss_is, loss_apg, /repo/experiments/apgs/objectives.py:17-52: [wmean lw x] is
      [(softmax(lw, 0) * (-x)).sum(0).mean()], [node_sum] the sum of a node's log_prob over its
      event dimensions (their values: Objectives.v). *)
  Context (wmean : T -> T -> T) (node_sum : T -> T).
  Definition loss_is (o : out) (total : T) : res T :=
    match out_px o with
    | None => Err AttributeError
    | Some px =>
        rbind (log_joint (VInt 0) (VInt 1) (VBool false) (dkeys (px_proposal_trace px)) (px_proposal_trace px)) (fun log_q =>
        rbind (log_joint (VInt 0) (VInt 1) (VBool false) (dkeys (px_target_trace px)) (px_target_trace px)) (fun log_p =>
        Ok (tadd L (tadd L (wmean (out_lw o) log_q) (wmean (out_lw o) log_p)) total)))
    end.
  Definition loss_apg (o : out) (total : T) : res T :=
    match out_px o with
    | None => Err AttributeError
    | Some px =>
        match px_forward_trace px with
        | None => Err AssertionError
        | Some fwd =>
            rbind (if dmem "recon" (px_target_trace px) then Ok "recon"
                   else match out_ix o with
                        | Some ix => of_ix ix (fun t s _ => Ok ("recon_" ++ show_z t ++ "_" ++ show_z s)%string) (Err AttributeError)
                        | None => Err AttributeError end) (fun key =>
            match dget key (px_target_trace px) with
            | None => Err KeyError
            | Some r =>
                rbind (log_joint (VInt 0) (VInt 1) (VBool false) (dkeys fwd) fwd) (fun log_q =>
                Ok (tadd L (tadd L (wmean (out_lw o) log_q) (wmean (out_lw o) (node_sum (rv_logp r)))) total))
            end)
        end
    end.

  (** gibbs_sweeps, /repo/experiments/apgs/gibbs.py:31-75.  [rs]: the resampler made by
      Resample(normalize_weights=True).  The combinator objects get the identities from 4 on. *)
  Context (rs : resampler L).
  Definition copts (loss : out -> T -> res T) (ix : pyval) (debug : bool) : infopts L := mkOpts loss None ix debug.
  Fixpoint is_composes (n : nat) : inf :=
    match n with
    | O => noop
    | S t => ICompose (4 + t) enc_coor (is_composes t) (copts default_loss (apg_ix (Z.of_nat t) 0 "forward") false)
    end.
  Definition initial_is (T_ : nat) : inf :=
    let q_os := ICompose (4 + T_) enc_digit (is_composes T_) (copts default_loss (apg_ix (Z.of_nat T_) 0 "forward") false) in
    IPropose (5 + T_) dec q_os (copts loss_is (apg_ix (Z.of_nat T_) 0 "forward") false) None true.
  (** the Propose of time step [t] ([t = T_]: the digit step) in sweep [s] *)
  Definition gibbs_step (T_ s t : nat) (q_t : inf) : inf :=
    let id := 8 + T_ + 4 * (s * (T_ + 1) + t) in
    let enc := if Nat.eqb t T_ then enc_digit else enc_coor in
    IPropose id
      (IExtend (id + 1) dec enc (copts default_loss (apg_ix (Z.of_nat t) (Z.of_nat s) "reverse") false))
      (ICompose (id + 2) enc q_t (copts default_loss (apg_ix (Z.of_nat t) (Z.of_nat s) "forward") true))
      (copts loss_apg (apg_ix (Z.of_nat t) (Z.of_nat s) "propose") false) None true.
  Definition resampled (id : nat) (q : inf) : inf := IResample id q VNone None rs false.
  (** [for t in range(n)] of sweep [s] *)
  Fixpoint sweep_steps (T_ s n : nat) (q_t : inf) : inf :=
    match n with
    | O => q_t
    | S t => resampled (8 + T_ + 4 * (s * (T_ + 1) + t) + 3) (gibbs_step T_ s t (sweep_steps T_ s t q_t))
    end.
  Fixpoint sweeps (T_ num_sweeps n : nat) : inf :=
    match n with
    | O => if Nat.ltb 0 num_sweeps then resampled (6 + T_) (initial_is T_) else initial_is T_
    | S s => let q := gibbs_step T_ (S s) T_ (sweep_steps T_ (S s) T_ (sweeps T_ num_sweeps s)) in
             if Nat.eqb (S s) num_sweeps then q else resampled (8 + T_ + 4 * (S s * (T_ + 1) + T_) + 3) q
    end.
  Definition gibbs_sweeps (num_sweeps T_ : nat) : inf := sweeps T_ num_sweeps num_sweeps.
End Models.
