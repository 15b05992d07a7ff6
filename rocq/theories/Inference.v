(** Model of /repo/combinators/inference.py: Resample, Extend, Compose, Propose. *)
From Verif Require Export Program.

Section Inference.
  Context (L : lib).
  Notation T := (T L). Notation D := (D L).
  Notation trace := (trace L). Notation rv := (rv L).
  Notation pyval := (pyval T). Notation M := (M L). Notation out := (out L).
  Notation model := (model L).

  (** Constructor arguments common to the combinators, /repo/combinators/inference.py:48-62.
      [in_ix = VNone] is [ix=None]; [in_loss0 = None] is [loss0=None].  A loss function is
      modelled as a pure function of the result built so far and the child's loss; it may
      raise. *)
  Record infopts : Type := mkOpts {
    in_loss : out -> T -> res T; in_loss0 : option T; in_ix : pyval; in_debug : bool }.

  (** A Trace is an ordered dict whatever the user code that built it did: [as_trace] reads
      a list of items as such a dict (it is the identity on lists without repeated keys). *)
  Definition as_trace (items : list (string * rv)) : trace := dmerge [] items.

  (** A resampler object: the signature of its __call__ and its behaviour on a trace, a
      log-weight and the keyword arguments it is given. *)
  Record resampler : Type := mkRS {
    rs_sig : sig;
    rs_call : trace -> T -> dict pyval -> stree L (res (trace * T)) }.

  (** transf_q_trace: a function from traces to traces with its keyword parameters
      ([None]: the identity lambda of /repo/combinators/inference.py:335-337). *)
  Record transf : Type := mkTF { tf_sig : sig; tf_call : trace -> dict pyval -> res trace }.

  (** Inference programs.  The first argument of every constructor is the identity of the
      Python object (two nodes with the same identity are the same object). *)
  Inductive inf : Type :=
  | IProg (oid : nat) (sg : sig) (m : pyval -> dict pyval -> model)
  | IResample (oid : nat) (q : inf) (ix : pyval) (loss0 : option T) (rs : resampler) (debug : bool)
  | IExtend (oid : nat) (p f : inf) (o : infopts)
  | ICompose (oid : nat) (q2 q1 : inf) (o : infopts)
  | IPropose (oid : nat) (p q : inf) (o : infopts) (tf : option transf) (no_reruns : bool).

  Definition oid_of (t : inf) : nat :=
    match t with
    | IProg i _ _ | IResample i _ _ _ _ _ | IExtend i _ _ _ | ICompose i _ _ _ | IPropose i _ _ _ _ _ => i
    end.
  Definition is_extend (t : inf) : bool := match t with IExtend _ _ _ _ => true | _ => false end.
  Definition is_compose (t : inf) : bool := match t with ICompose _ _ _ _ => true | _ => false end.

  (** [t._debug]: an attribute of every Inf object (/repo/combinators/inference.py:60); a
      Program has no such attribute, reading it raises AttributeError. *)
  Definition debug_attr (t : inf) : res bool :=
    match t with
    | IProg _ _ _ => Err AttributeError
    | IResample _ _ _ _ _ d => Ok d
    | IExtend _ _ _ o | ICompose _ _ _ o | IPropose _ _ _ o _ _ => Ok (in_debug o)
    end.

  (** Signature of the combinators' __call__,
      /repo/combinators/inference.py:95-104,178-187,264-273,350-359. *)
  Definition inf_call_sig : sig :=
    mkSig ["self"; "c"; "sample_dims"; "batch_dim"; "_debug"; "reparameterized"; "ix"] [] true.
  (** nn.Module.__call__ (self, *input, **kwargs) and Program.forward,
      /repo/combinators/program.py:60-67. *)
  Definition module_call_sig : sig := mkSig ["self"] [] true.
  Definition program_forward_sig : sig :=
    mkSig ["self"] ["sample_dims"; "batch_dim"; "reparameterized"] true.

  (** what [dispatch] inspects on an inference program *)
  Definition callee_of (t : inf) : callee :=
    match t with
    | IProg _ sg _ => mkCallee module_call_sig (Some program_forward_sig) (Some sg)
    | _ => mkCallee inf_call_sig None None
    end.

  (** The named parameters of a combinator call, after binding. *)
  Record bound : Type := mkBound {
    b_sd : pyval; b_bd : pyval; b_debug : pyval; b_rep : pyval; b_ix : pyval; b_shared : dict pyval }.
  Definition reserved : list string := ["sample_dims"; "batch_dim"; "_debug"; "reparameterized"; "ix"].
  Definition bind_call (kws : dict pyval) : res bound :=
    if clash ["self"; "c"] kws then Err TypeError else
    Ok (mkBound (kwarg "sample_dims" VNone kws) (kwarg "batch_dim" VNone kws)
                (kwarg "_debug" (VBool false) kws) (kwarg "reparameterized" (VBool true) kws)
                (kwarg "ix" VNone kws)
                (filter (fun kv => negb (mem (fst kv) reserved)) kws)).

  (** [ix = self.ix if self.ix is not None else ix] *)
  Definition resolve_ix (self_ix ix : pyval) : pyval := if is_none self_ix then ix else self_ix.

  (** [shape_kwargs] and [dict(_debug=_debug, ix=ix, **shape_kwargs)] *)
  Definition shape_kwargs (b : bound) : dict pyval :=
    [("sample_dims", b_sd b); ("batch_dim", b_bd b); ("reparameterized", b_rep b)].
  Definition inf_kwargs (b : bound) (ix : pyval) : dict pyval :=
    ("_debug", b_debug b) :: ("ix", ix) :: shape_kwargs b.

  (** [out["loss"] = self.foldr_loss(out, self.loss0 if "loss" not in child else child["loss"])] *)
  Definition with_loss (o : out) (l : T) : out :=
    mkOut (out_trace o) (out_lw o) (out_output o) (out_type o) (out_ix o) (Some l)
          (out_marginal o) (out_px o) (out_subs o).
  Definition add_loss (lf : out -> T -> res T) (loss0 : option T) (child o : out) : res out :=
    let l0 := match out_loss child with
              | Some l => l
              | None => match loss0 with Some l => l | None => tzero L end
              end in
    rmap (with_loss o) (lf o l0).
  (** [if debugging: out[k] = child] *)
  Definition add_subs (debugging : bool) (subs : list (string * out)) (o : out) : out :=
    if debugging
    then mkOut (out_trace o) (out_lw o) (out_output o) (out_type o) (out_ix o) (out_loss o)
               (out_marginal o) (out_px o) (out_subs o ++ subs)
    else o.
  Definition default_loss : out -> T -> res T := fun _ fin => Ok fin.

  Definition get_sub (k : string) (o : out) : option out := dget k (out_subs o).

  (** Output update of Resample, /repo/combinators/inference.py:132-138. *)
  Fixpoint resample_output (c1 : dict pyval) (tr2 : trace) : res (dict pyval) :=
    match c1 with
    | [] => Ok []
    | (k, v) :: c1' =>
        rbind (match dget k tr2 with
               | None => Ok v
               | Some r => match v with
                           | VTensor _ => Ok (VTensor (rv_value r))
                           | _ => Err AssertionError
                           end
               end) (fun v' =>
        rbind (resample_output c1' tr2) (fun c2 => Ok ((k, v') :: c2)))
    end.

  (** global_store.resample_update(trace, resampled), /repo/combinators/out.py:126-128 *)
  Definition resample_update (tr tr2 : trace) : M unit :=
    fun s => match hook s (store s) tr tr2 with
             | Ok d => Leaf (Ok tt, set_store d s)
             | Err e => Leaf (Err e, s)
             end.

  (** The "detach c" block of Propose, /repo/combinators/inference.py:398-409. *)
  Definition detach_entry (v : pyval) : pyval :=
    match v with VTensor t => VTensor (detach L t) | v => v end.
  Definition detach_output (v : pyval) : pyval :=
    match v with
    | VTensor t => VTensor (detach L t)
    | VDict d => VDict (map (fun kv => (fst kv, detach_entry (snd kv))) d)
    | v => v
    end.

  (** Propose.marginalize, /repo/combinators/inference.py:339-348 *)
  Definition marginalize (p : inf) (p_out : out) : res (pyval * trace) :=
    if is_extend p then
      match out_marginal p_out with
      | None => Err AssertionError
      | Some (mkeys, mout) =>
          let drop := sdiff (dkeys (out_trace p_out)) mkeys in
          rmap (fun tr => (mout, tr)) (copytraces (fun k => mem k drop) NoOverlaps [out_trace p_out])
      end
    else Ok (out_output p_out, out_trace p_out).

  (** dispatch(self.transf_q_trace, q_out.trace, **inf_kwargs), /repo/combinators/inference.py:386 *)
  Definition apply_transf (tf : option transf) (tr : trace) (kws : dict pyval) : res trace :=
    match tf with
    | None => Ok tr
    | Some f => rmap as_trace (tf_call f tr (dispatch_kwargs (mkCallee (tf_sig f) None None) kws))
    end.

  (** forward_trace, /repo/combinators/inference.py:429-431:
      [q_out.q2_out.trace if self.q._debug and q_out.type == Compose else None] *)
  Definition forward_trace (q : inf) (q_out : out) : res (option trace) :=
    rbind (debug_attr q) (fun d =>
      if d then
        match out_type q_out with
        | TyCompose => match get_sub "q2_out" q_out with
                       | Some o => Ok (Some (out_trace o))
                       | None => Err AttributeError
                       end
        | _ => Ok None
        end
      else Ok None).

  (** [dispatch(t, c, **kws)], /repo/combinators/program.py:125-154: a keyword argument
      named like dispatch's own first parameter is a TypeError. *)
  Definition mdispatch {A} (t : inf) (kws : dict pyval) (k : dict pyval -> M A) : M A :=
    if clash ["fn"] kws then raise TypeError else k (dispatch_kwargs (callee_of t) kws).

  (** Calling an inference program: [t(c, **kws)]. *)
  Fixpoint run (t : inf) (c : pyval) (kws : dict pyval) {struct t} : M out :=
    match t with
    | IProg oid sg m => forward oid sg m c kws

    (* Resample.__call__, /repo/combinators/inference.py:95-160 *)
    | IResample oid q self_ix loss0 rs self_debug =>
        mbind (lift (bind_call kws)) (fun b =>
        let debugging := truthy (b_debug b) || self_debug in
        let ix := resolve_ix self_ix (b_ix b) in
        mbind (run q c (inf_kwargs b ix ++ b_shared b)) (fun q_out =>
        let passable := filter (fun kv => check_passable_kwarg (fst kv) (rs_sig rs)) (shape_kwargs b) in
        mbind (fun s => tbind (rs_call rs (out_trace q_out) (out_lw q_out) passable)
                          (fun r => Leaf (r, s))) (fun trlw =>
        let '(tr2, lw2) := (as_trace (fst trlw), snd trlw) in
        mbind (match out_output q_out with
               | VDict c1 => lift (resample_output c1 tr2)
               | _ => raise AssertionError
               end) (fun c2 =>
        mbind (resample_update (out_trace q_out) tr2) (fun _ =>
        let o := mkOut tr2 lw2 (VDict c2) TyResample (Some ix) None None None [] in
        mbind (lift (add_loss default_loss loss0 q_out o)) (fun o =>
        ret (add_subs debugging [("q_out", q_out)] o)))))))

    (* Extend.__call__, /repo/combinators/inference.py:178-247 *)
    | IExtend oid p f o =>
        mbind (lift (bind_call kws)) (fun b =>
        let debugging := truthy (b_debug b) || in_debug o in
        let ix := resolve_ix (in_ix o) (b_ix b) in
        let kws' := inf_kwargs b ix ++ b_shared b in
        mbind get (fun s0 =>
        let cond := get_cond oid s0 in
        mbind (with_substitution (oid_of p) cond
                (with_substitution (oid_of f) cond
                  (mbind (mdispatch p kws' (run p c)) (fun p_out =>
                   mbind (mdispatch f kws' (run f (out_output p_out))) (fun f_out =>
                   ret (p_out, f_out)))))) (fun pf =>
        let '(p_out, f_out) := pf in
        mbind get (fun s1 =>
        mbind (match get_cond oid s1 with
               | None =>
                   mbind (lift (eq_zero L (out_lw f_out))) (fun z =>
                   mbind (massert z) (fun _ =>
                   massert (forallb (fun kv => negb (is_observed (snd kv) || is_reused (snd kv)))
                                    (out_trace f_out))))
               | Some _ =>
                   massert (forallb (fun kv => negb (is_observed (snd kv))) (out_trace f_out))
               end) (fun _ =>
        mbind (massert (match sinter (dkeys (out_trace f_out)) (dkeys (out_trace p_out)) with
                        | [] => true | _ => false end)) (fun _ =>
        mbind (lift (log_joint (b_sd b) (b_bd b) (b_rep b) (latent_addrs (out_trace f_out))
                               (out_trace f_out))) (fun log_u2 =>
        mbind (lift (copytraces no_excl FirstWriteWins [out_trace p_out; out_trace f_out])) (fun tr =>
        let r := mkOut tr (tadd L (out_lw p_out) log_u2) (out_output f_out) TyExtend (Some ix) None
                       (Some (dkeys (out_trace p_out), out_output p_out)) None [] in
        mbind (lift (add_loss (in_loss o) (in_loss0 o) p_out r)) (fun r =>
        ret (add_subs debugging [("p_out", p_out); ("f_out", f_out)] r))))))))))

    (* Compose.__call__, /repo/combinators/inference.py:264-314 *)
    | ICompose oid q2 q1 o =>
        mbind (lift (bind_call kws)) (fun b =>
        let debugging := truthy (b_debug b) || in_debug o in
        let ix := resolve_ix (in_ix o) (b_ix b) in
        let kws' := inf_kwargs b ix ++ b_shared b in
        mbind (mdispatch q1 kws' (run q1 c)) (fun q1_out =>
        mbind (mdispatch q2 kws' (run q2 (out_output q1_out))) (fun q2_out =>
        mbind (lift (copytraces no_excl LastWriteWins [out_trace q2_out; out_trace q1_out])) (fun tr =>
        mbind (massert (match sinter (dkeys (out_trace q2_out)) (dkeys (out_trace q1_out)) with
                        | [] => true | _ => false end)) (fun _ =>
        let r := mkOut tr (tadd L (out_lw q1_out) (out_lw q2_out)) (out_output q2_out) TyCompose (Some ix)
                       None None None [] in
        mbind (lift (add_loss (in_loss o) (in_loss0 o) q1_out r)) (fun r =>
        ret (add_subs debugging [("q1_out", q1_out); ("q2_out", q2_out)] r)))))))

    (* Propose.__call__, /repo/combinators/inference.py:350-446; the constructor's
       assertion (line 330) is checked here, at the start of the call *)
    | IPropose oid p q o tf no_reruns =>
        mbind (massert (negb (is_compose p))) (fun _ =>
        mbind (lift (bind_call kws)) (fun b =>
        let debugging := truthy (b_debug b) || in_debug o in
        let ix := resolve_ix (in_ix o) (b_ix b) in
        let ikw := inf_kwargs b ix in
        let kws' := ikw ++ b_shared b in
        mbind (mdispatch q kws' (run q c)) (fun q_out =>
        mbind (with_substitution (oid_of p) (Some (out_trace q_out))
                 (mdispatch p kws' (run p c))) (fun p_out =>
        let rho_1 := dkeys (out_trace q_out) in
        let tau_1 := latent_addrs (out_trace q_out) in
        let tau_2 := latent_addrs (out_trace p_out) in
        let nodes := sdiff rho_1 (sdiff tau_1 tau_2) in
        mbind (lift (apply_transf tf (out_trace q_out) ikw)) (fun q_trace =>
        mbind (lift (log_joint (b_sd b) (b_bd b) (b_rep b) nodes q_trace)) (fun lu_1 =>
        let lw_1 := out_lw q_out in
        let lv := tsub L (out_lw p_out) lu_1 in
        let lw_out := tadd L lw_1 lv in
        mbind (lift (marginalize p p_out)) (fun mm =>
        let '(m_output, m_trace) := mm in
        let new_out := detach_output m_output in
        mbind (lift (if no_reruns then Ok m_trace else rerun_with_detached_values m_trace)) (fun tr =>
        mbind (if is_tensor L lw_out then ret (detach L lw_out) else raise AttributeError) (fun lw =>
        let lw_px := if is_tensor L lw_1 then detach L lw_1 else to_tensor L lw_1 in
        mbind (lift (copytraces no_excl NoOverlaps [out_trace q_out])) (fun prop_tr =>
        mbind (lift (copytraces no_excl NoOverlaps [out_trace p_out])) (fun targ_tr =>
        mbind (lift (forward_trace q q_out)) (fun fwd =>
        let r := mkOut tr lw new_out TyPropose (Some ix) None None
                       (Some (mkPX nodes lv lw_px prop_tr targ_tr fwd)) [] in
        mbind (lift (add_loss (in_loss o) (in_loss0 o) q_out r)) (fun r =>
        ret (add_subs debugging [("q_out", q_out); ("p_out", p_out)] r))))))))))))))
    end.
End Inference.

Arguments as_trace {L}. Arguments mkOpts {L}. Arguments in_loss {L}. Arguments in_loss0 {L}. Arguments in_ix {L}. Arguments in_debug {L}.
Arguments mkRS {L}. Arguments rs_sig {L}. Arguments rs_call {L}.
Arguments mkTF {L}. Arguments tf_sig {L}. Arguments tf_call {L}.
Arguments IProg {L}. Arguments IResample {L}. Arguments IExtend {L}. Arguments ICompose {L}. Arguments IPropose {L}.
Arguments oid_of {L}. Arguments is_extend {L}. Arguments is_compose {L}. Arguments debug_attr {L}.
Arguments callee_of {L}.
Arguments mkBound {L}. Arguments b_sd {L}. Arguments b_bd {L}. Arguments b_debug {L}. Arguments b_rep {L}.
Arguments b_ix {L}. Arguments b_shared {L}. Arguments bind_call {L}. Arguments resolve_ix {L}.
Arguments shape_kwargs {L}. Arguments inf_kwargs {L}. Arguments with_loss {L}. Arguments add_loss {L}.
Arguments add_subs {L}. Arguments default_loss {L}. Arguments get_sub {L}. Arguments resample_output {L}.
Arguments resample_update {L}. Arguments detach_entry {L}. Arguments detach_output {L}.
Arguments marginalize {L}. Arguments apply_transf {L}. Arguments forward_trace {L}. Arguments mdispatch {L A}. Arguments run {L}.
