(** Each combinator's call as an equation between sampling trees: run the sub-programs, then
    compute the result with a pure function.  [teq] is equality of sampling trees, branch by
    branch. *)
From Verif Require Export Thm_Propose Thm_Session.

Section TEq.
  Context {L : lib}.
  Definition teq {A} (t t' : stree L A) : Prop := same_draws eq t t'.
  Lemma teq_refl {A} (t : stree L A) : teq t t.
  Proof. induction t; constructor; auto. Qed.
  Lemma teq_eq {A} (t t' : stree L A) : t = t' -> teq t t'.
  Proof. intros ->. apply teq_refl. Qed.
  Lemma teq_sym {A} (t t' : stree L A) : teq t t' -> teq t' t.
  Proof. induction 1; constructor; auto. Qed.
  Lemma teq_trans {A} (t t' t'' : stree L A) : teq t t' -> teq t' t'' -> teq t t''.
  Proof.
    revert t' t''. induction t as [a|d k IH]; intros t' t'' H H'; inversion H; subst; inversion H'; subst; constructor.
    - reflexivity.
    - intros v. eapply IH; [match goal with H : forall v, same_draws eq (k v) _ |- _ => apply H end|].
      match goal with H : forall v, same_draws eq _ (_ v) |- _ => apply H end.
  Qed.
  Lemma teq_tbind {A B} (t t' : stree L A) (f f' : A -> stree L B) :
    teq t t' -> (forall a, teq (f a) (f' a)) -> teq (tbind t f) (tbind t' f').
  Proof. intros H Hf. eapply sd_bind; [exact H|]. intros a b <-. apply Hf. Qed.
  Lemma teq_assoc {A B C} (t : stree L A) (f : A -> stree L B) (g : B -> stree L C) :
    teq (tbind (tbind t f) g) (tbind t (fun a => tbind (f a) g)).
  Proof. induction t as [a|d k IH]; cbn; [apply teq_refl|]. constructor. exact IH. Qed.
  Lemma teq_path {A} (t t' : stree L A) ds a : teq t t' -> path t ds a -> path t' ds a.
  Proof. intros H Hp. destruct (sd_path _ _ _ H _ _ Hp) as (b & Hb & <-). exact Hb. Qed.

  (** a path is determined by its drawn values *)
  Lemma path_det {A} (t : stree L A) ds a : path t ds a -> forall ds' a', path t ds' a' -> map snd ds = map snd ds' -> ds = ds' /\ a = a'.
  Proof.
    induction 1 as [a|d k v ds a H IH]; intros ds' a' H' E; inversion H'; subst; cbn in E; try discriminate; [auto|].
    injection E as <- E. match goal with H0 : path (k v) _ _ |- _ => destruct (IH _ _ H0 E) as [-> ->] end. auto.
  Qed.
  Lemma path_prefix {A} (t : stree L A) ds a : path t ds a -> forall ds' a' vs, path t ds' a' -> map snd ds' = map snd ds ++ vs -> vs = [].
  Proof.
    induction 1 as [a|d k v ds a H IH]; intros ds' a' vs H' E; inversion H'; subst; cbn in E; try discriminate.
    - symmetry. exact E.
    - injection E as -> E. eapply IH; eassumption.
  Qed.
  (** when every sequence of [n] values is drawn by some path, every path draws [n] values *)
  Lemma path_length {A} (t : stree L A) n :
    (forall vs, length vs = n -> exists ds a, path t ds a /\ map snd ds = vs) ->
    forall ds a, path t ds a -> length ds = n.
  Proof.
    intros H ds a Hp. destruct (Nat.lt_trichotomy (length ds) n) as [Hlt|[E|Hgt]]; [|exact E|]; exfalso.
    - destruct (H (map snd ds ++ repeat (tzero L) (n - length ds))) as (ds' & a' & H' & E').
      { rewrite app_length, map_length, repeat_length. lia. }
      apply (path_prefix _ _ _ Hp _ _ _ H') in E'. apply (f_equal (@length _)) in E'. rewrite repeat_length in E'. cbn in E'. lia.
    - destruct (H (firstn n (map snd ds))) as (ds' & a' & H' & E').
      { rewrite firstn_length, map_length. lia. }
      assert (E2 : map snd ds = map snd ds' ++ skipn n (map snd ds)) by (rewrite E', firstn_skipn; reflexivity).
      apply (path_prefix _ _ _ H' _ _ _ Hp) in E2. apply (f_equal (@length _)) in E2. rewrite skipn_length, map_length in E2. cbn in E2. lia.
  Qed.
End TEq.

Section RunEq.
  Context {L : lib}.
  Notation T := (T L). Notation pyval := (pyval T). Notation trace := (trace L). Notation out := (out L).
  Implicit Types (kws : dict pyval).

  Definition k_sd kws := kwarg (L := L) "sample_dims" VNone kws.
  Definition k_bd kws := kwarg (L := L) "batch_dim" VNone kws.
  Definition k_rep kws := kwarg (L := L) "reparameterized" (VBool true) kws.
  Definition k_debug kws := kwarg (L := L) "_debug" (VBool false) kws.
  Definition k_ix kws := kwarg (L := L) "ix" VNone kws.

  (** continue after a call that returned; pass an exception on *)
  Definition after {A B} (x : res A * st L) (f : A -> st L -> stree L (res B * st L)) : stree L (res B * st L) :=
    match fst x with Ok a => f a (snd x) | Err e => Leaf (Err e, snd x) end.

  Lemma mbind_lift {A B} (r : res A) (f : A -> M L B) s :
    mbind (lift r) f s = match r with Ok a => f a s | Err e => Leaf (Err e, s) end.
  Proof. destruct r; reflexivity. Qed.
  Lemma mbind_massert {B} b (f : unit -> M L B) s :
    mbind (massert b) f s = if b then f tt s else Leaf (Err AssertionError, s).
  Proof. destruct b; reflexivity. Qed.
  Lemma mdispatch_eq {A} t kws (k : dict pyval -> M L A) : wf_dict kws -> clash ["fn"] kws = false ->
    mdispatch t kws k = k kws.
  Proof. intros Hk Hf. unfold mdispatch. rewrite Hf, dispatch_all by exact Hk. reflexivity. Qed.

  (** *** Compose *)
  Definition compose_tail (o : infopts L) kws (o1 o2 : out) : res out :=
    rbind (copytraces no_excl LastWriteWins [out_trace o2; out_trace o1]) (fun tr =>
    if match sinter (dkeys (out_trace o2)) (dkeys (out_trace o1)) with [] => true | _ => false end then
    rbind (add_loss (in_loss o) (in_loss0 o) o1
             (mkOut tr (tadd L (out_lw o1) (out_lw o2)) (out_output o2) TyCompose (Some (resolve_ix (in_ix o) (k_ix kws)))
                None None None [])) (fun r =>
    Ok (add_subs (truthy (k_debug kws) || in_debug o) [("q1_out", o1); ("q2_out", o2)] r))
    else Err AssertionError).

  Lemma run_compose_eq oid q2 q1 o c kws s : wf_dict kws -> clash ["self"; "c"; "fn"] kws = false ->
    teq (run (L := L) (ICompose oid q2 q1 o) c kws s)
        (tbind (run q1 c (sub_kwargs (in_ix o) kws) s) (fun x => after x (fun o1 s1 =>
         tbind (run q2 (out_output o1) (sub_kwargs (in_ix o) kws) s1) (fun y => after y (fun o2 s2 =>
         Leaf (compose_tail o kws o1 o2, s2)))))).
  Proof.
    intros Hk Hc. destruct (clash_split L kws Hc) as [Hc1 Hc2].
    pose proof (bind_call_ok kws Hc1) as Hb. pose proof (wf_sub_kwargs (in_ix o) kws Hk) as Hk'.
    assert (Hfn : clash ["fn"] (sub_kwargs (in_ix o) kws) = false).
    { rewrite clash_sub_kwargs by (cbn; intuition discriminate). exact Hc2. }
    cbn [run]. rewrite mbind_lift, Hb. cbn zeta. rewrite (sub_kwargs_eq kws _ (in_ix o) Hb).
    rewrite mdispatch_eq by assumption. unfold mbind at 1.
    apply teq_tbind; [apply teq_refl|]. intros [[o1|e] s1]; cbn [fst snd after]; [|apply teq_refl].
    unfold after. cbn [fst snd].
    rewrite mdispatch_eq by assumption. unfold mbind at 1.
    apply teq_tbind; [apply teq_refl|]. intros [[o2|e] s2]; cbn [fst snd]; [|apply teq_refl].
    apply teq_eq. rewrite mbind_lift. unfold compose_tail.
    destruct (copytraces _ _ _) as [tr|e]; cbn [rbind]; [|reflexivity].
    rewrite mbind_massert. destruct (sinter _ _); [|reflexivity].
    rewrite mbind_lift. cbn [b_ix b_debug]. unfold k_ix, k_debug. destruct (add_loss _ _ _ _); reflexivity.
  Qed.

  (** *** Extend *)
  Definition extend_tail (o : infopts L) kws (cond : option trace) (p_out f_out : out) : res out :=
    rbind (match cond with
           | None => rbind (eq_zero L (out_lw f_out)) (fun z =>
                     if z then
                       if forallb (fun kv => negb (is_observed (snd kv) || is_reused (snd kv))) (out_trace f_out)
                       then Ok tt else Err AssertionError
                     else Err AssertionError)
           | Some _ => if forallb (fun kv => negb (is_observed (snd kv))) (out_trace f_out) then Ok tt else Err AssertionError
           end) (fun _ =>
    if match sinter (dkeys (out_trace f_out)) (dkeys (out_trace p_out)) with [] => true | _ => false end then
    rbind (log_joint (k_sd kws) (k_bd kws) (k_rep kws) (latent_addrs (out_trace f_out)) (out_trace f_out)) (fun log_u2 =>
    rbind (copytraces no_excl FirstWriteWins [out_trace p_out; out_trace f_out]) (fun tr =>
    rbind (add_loss (in_loss o) (in_loss0 o) p_out
             (mkOut tr (tadd L (out_lw p_out) log_u2) (out_output f_out) TyExtend (Some (resolve_ix (in_ix o) (k_ix kws))) None
                (Some (dkeys (out_trace p_out), out_output p_out)) None [])) (fun r =>
    Ok (add_subs (truthy (k_debug kws) || in_debug o) [("p_out", p_out); ("f_out", f_out)] r))))
    else Err AssertionError).

  Lemma with_eq {A} oid (t : option trace) (m : M L A) s : (forall tr, t = Some tr -> wf_dict tr) ->
    with_substitution oid t m s = tbind (m (set_cond oid t s)) (fun x => Leaf (fst x, set_cond oid None (snd x))).
  Proof.
    intros Hwf. unfold with_substitution, mfinally.
    assert (Hc : match t with None => ret None
                 | Some tr => lift (rmap Some (copytraces no_excl NoOverlaps [tr])) end = ret (L := L) t).
    { destruct t as [tr|]; [|reflexivity]. rewrite copytraces_one by (apply Hwf; reflexivity). reflexivity. }
    rewrite Hc. reflexivity.
  Qed.

  Lemma run_extend_eq oid p f o c kws s : wf_dict kws -> wf_st s -> clash ["self"; "c"; "fn"] kws = false ->
    let cond := get_cond oid s in
    let unset s := set_cond (oid_of p) None (set_cond (oid_of f) None s) in
    teq (run (L := L) (IExtend oid p f o) c kws s)
        (tbind (run p c (sub_kwargs (in_ix o) kws) (set_cond (oid_of f) cond (set_cond (oid_of p) cond s))) (fun x =>
         match fst x with
         | Err e => Leaf (Err e, unset (snd x))
         | Ok po =>
           tbind (run f (out_output po) (sub_kwargs (in_ix o) kws) (snd x)) (fun y =>
           match fst y with
           | Err e => Leaf (Err e, unset (snd y))
           | Ok fo => Leaf (extend_tail o kws (get_cond oid (unset (snd y))) po fo, unset (snd y))
           end)
         end)).
  Proof.
    intros Hk Hs Hc. cbn zeta. destruct (clash_split L kws Hc) as [Hc1 Hc2].
    pose proof (bind_call_ok kws Hc1) as Hb. pose proof (wf_sub_kwargs (in_ix o) kws Hk) as Hk'.
    assert (Hfn : clash ["fn"] (sub_kwargs (in_ix o) kws) = false).
    { rewrite clash_sub_kwargs by (cbn; intuition discriminate). exact Hc2. }
    cbn [run]. rewrite mbind_lift, Hb. cbn zeta. rewrite (sub_kwargs_eq kws _ (in_ix o) Hb).
    unfold mbind at 1. cbn [get tbind fst snd]. unfold mbind at 1.
    rewrite with_eq by (intros t; apply Hs).
    eapply teq_trans; [apply teq_assoc|]. cbn [tbind].
    rewrite with_eq by (intros t; apply Hs).
    eapply teq_trans; [apply teq_assoc|]. cbn [tbind].
    rewrite mdispatch_eq by assumption. unfold mbind at 1.
    eapply teq_trans; [apply teq_assoc|].
    apply teq_tbind; [apply teq_refl|]. intros [[po|e] s1]; cbn [fst snd tbind]; [|apply teq_refl].
    rewrite mdispatch_eq by assumption. unfold mbind at 1.
    eapply teq_trans; [apply teq_assoc|].
    apply teq_tbind; [apply teq_refl|]. intros [[fo|e] s2]; cbn [fst snd tbind]; [|apply teq_refl].
    unfold ret. cbn [fst snd tbind]. apply teq_eq. unfold mbind at 1. cbn [get tbind fst snd].
    set (s' := set_cond (oid_of p) None (set_cond (oid_of f) None s2)). unfold extend_tail.
    assert (Hrest : mbind (massert (match sinter (dkeys (out_trace fo)) (dkeys (out_trace po)) with
                        | [] => true | _ => false end)) (fun _ =>
        mbind (lift (log_joint (k_sd kws) (k_bd kws) (k_rep kws) (latent_addrs (out_trace fo))
                               (out_trace fo))) (fun log_u2 =>
        mbind (lift (copytraces no_excl FirstWriteWins [out_trace po; out_trace fo])) (fun tr =>
        let r := mkOut tr (tadd L (out_lw po) log_u2) (out_output fo) TyExtend (Some (resolve_ix (in_ix o) (k_ix kws))) None
                       (Some (dkeys (out_trace po), out_output po)) None [] in
        mbind (lift (add_loss (in_loss o) (in_loss0 o) po r)) (fun r =>
        ret (add_subs (truthy (k_debug kws) || in_debug o) [("p_out", po); ("f_out", fo)] r))))) s' =
      Leaf (if match sinter (dkeys (out_trace fo)) (dkeys (out_trace po)) with [] => true | _ => false end then
    rbind (log_joint (k_sd kws) (k_bd kws) (k_rep kws) (latent_addrs (out_trace fo)) (out_trace fo)) (fun log_u2 =>
    rbind (copytraces no_excl FirstWriteWins [out_trace po; out_trace fo]) (fun tr =>
    rbind (add_loss (in_loss o) (in_loss0 o) po
             (mkOut tr (tadd L (out_lw po) log_u2) (out_output fo) TyExtend (Some (resolve_ix (in_ix o) (k_ix kws))) None
                (Some (dkeys (out_trace po), out_output po)) None [])) (fun r =>
    Ok (add_subs (truthy (k_debug kws) || in_debug o) [("p_out", po); ("f_out", fo)] r))))
    else Err AssertionError, s')).
    { rewrite mbind_massert. destruct (sinter _ _); [|reflexivity].
      rewrite mbind_lift. destruct (log_joint _ _ _ _ _) as [lu|e]; [|reflexivity]. cbn [rbind].
      rewrite mbind_lift. destruct (copytraces _ _ _) as [tr|e]; [|reflexivity]. cbn [rbind].
      rewrite mbind_lift. destruct (add_loss _ _ _ _); reflexivity. }
    destruct (get_cond oid s') as [ct|].
    - rewrite mbind_massert. destruct (forallb _ _); [|reflexivity]. exact Hrest.
    - unfold mbind at 1. rewrite mbind_lift. destruct (eq_zero L (out_lw fo)) as [[|]|e]; cbn [tbind fst snd rbind]; try reflexivity.
      rewrite mbind_massert. cbn [tbind].
      destruct (forallb _ _); cbn [tbind fst snd massert ret raise]; [|reflexivity]. exact Hrest.
  Qed.

  (** *** Propose *)
  Definition propose_tail (o : infopts L) (p q : inf L) (tf : option (transf L)) (no_reruns : bool) kws (q_out p_out : out) : res out :=
    let ix := resolve_ix (in_ix o) (k_ix kws) in
    let nodes := sdiff (dkeys (out_trace q_out)) (sdiff (latent_addrs (out_trace q_out)) (latent_addrs (out_trace p_out))) in
    rbind (apply_transf tf (out_trace q_out) (firstn 5 (sub_kwargs (in_ix o) kws))) (fun q_trace =>
    rbind (log_joint (k_sd kws) (k_bd kws) (k_rep kws) nodes q_trace) (fun lu_1 =>
    let lw_1 := out_lw q_out in
    let lv := tsub L (out_lw p_out) lu_1 in
    let lw_out := tadd L lw_1 lv in
    rbind (marginalize p p_out) (fun mm =>
    rbind (if no_reruns then Ok (snd mm) else rerun_with_detached_values (snd mm)) (fun tr =>
    rbind (if is_tensor L lw_out then Ok (detach L lw_out) else Err AttributeError) (fun lw =>
    let lw_px := if is_tensor L lw_1 then detach L lw_1 else to_tensor L lw_1 in
    rbind (copytraces no_excl NoOverlaps [out_trace q_out]) (fun prop_tr =>
    rbind (copytraces no_excl NoOverlaps [out_trace p_out]) (fun targ_tr =>
    rbind (forward_trace q q_out) (fun fwd =>
    rbind (add_loss (in_loss o) (in_loss0 o) q_out
             (mkOut tr lw (detach_output (fst mm)) TyPropose (Some ix) None None
                (Some (mkPX nodes lv lw_px prop_tr targ_tr fwd)) [])) (fun r =>
    Ok (add_subs (truthy (k_debug kws) || in_debug o) [("q_out", q_out); ("p_out", p_out)] r)))))))))).

  Lemma run_propose_eq oid p q o tf nr c kws s : wf_dict kws -> wf_st s -> clash ["self"; "c"; "fn"] kws = false ->
    is_compose p = false ->
    teq (run (L := L) (IPropose oid p q o tf nr) c kws s)
        (tbind (run q c (sub_kwargs (in_ix o) kws) s) (fun x => after x (fun qo s1 =>
         tbind (with_substitution (oid_of p) (Some (out_trace qo)) (run p c (sub_kwargs (in_ix o) kws)) s1)
           (fun y => after y (fun po s2 => Leaf (propose_tail o p q tf nr kws qo po, s2)))))).
  Proof.
    intros Hk Hs Hc Hp. destruct (clash_split L kws Hc) as [Hc1 Hc2].
    pose proof (bind_call_ok kws Hc1) as Hb. pose proof (wf_sub_kwargs (in_ix o) kws Hk) as Hk'.
    assert (Hfn : clash ["fn"] (sub_kwargs (in_ix o) kws) = false).
    { rewrite clash_sub_kwargs by (cbn; intuition discriminate). exact Hc2. }
    cbn [run]. rewrite mbind_massert, Hp. cbn [negb]. rewrite mbind_lift, Hb. cbn zeta. rewrite (sub_kwargs_eq kws _ (in_ix o) Hb).
    rewrite mdispatch_eq by assumption. unfold mbind at 1.
    apply teq_tbind; [apply teq_refl|]. intros [[qo|e] s1]; cbn [fst snd after]; [|apply teq_refl].
    unfold after. cbn [fst snd].
    rewrite mdispatch_eq by assumption. unfold mbind at 1.
    apply teq_tbind; [apply teq_refl|]. intros [[po|e] s2]; cbn [fst snd]; [|apply teq_refl].
    apply teq_eq. unfold propose_tail.
    rewrite mbind_lift. cbn [b_ix b_debug b_sd b_bd b_rep]. 
    match goal with |- context [apply_transf tf _ ?k] => change k with (firstn 5 (sub_kwargs (in_ix o) kws)) end.
    destruct (apply_transf _ _ _) as [qt|e]; cbn [rbind]; [|reflexivity].
    rewrite mbind_lift. unfold k_sd, k_bd, k_rep. destruct (log_joint _ _ _ _ _) as [lu|e]; cbn [rbind]; [|reflexivity].
    rewrite mbind_lift. destruct (marginalize p po) as [[mo mt]|e]; cbn [rbind fst snd]; [|reflexivity].
    rewrite mbind_lift. destruct (if nr then _ else _) as [tr|e]; cbn [rbind]; [|reflexivity].
    destruct (is_tensor L _); [|reflexivity]. cbn [rbind]. unfold mbind at 1. cbn [ret tbind fst snd].
    rewrite mbind_lift. destruct (copytraces _ _ [out_trace qo]) as [pt|e]; cbn [rbind]; [|reflexivity].
    rewrite mbind_lift. destruct (copytraces _ _ [out_trace po]) as [tt'|e]; cbn [rbind]; [|reflexivity].
    rewrite mbind_lift. destruct (forward_trace q qo) as [fw|e]; cbn [rbind]; [|reflexivity].
    rewrite mbind_lift. unfold k_ix, k_debug. destruct (add_loss _ _ _ _); reflexivity.
  Qed.

  (** *** Programs *)
  Definition prog_kwargs (sg : sig) kws : dict pyval :=
    filter (fun kv => check_passable_kwarg (fst kv) sg)
      (dmerge [("sample_dims", k_sd kws); ("batch_dim", k_bd kws); ("reparameterized", k_rep kws)]
         (filter (fun kv => negb (mem (fst kv) ["sample_dims"; "batch_dim"; "reparameterized"])) kws)).
  Definition prog_tail kws (cond : option trace) (ot : pyval * trace) : res out :=
    let '(o, tr) := ot in
    rbind (log_joint (k_sd kws) (k_bd kws) (k_rep kws)
             (sdiff (dkeys tr) (sdiff (latent_addrs tr) (match cond with Some ct => latent_addrs ct | None => [] end))) tr)
      (fun lw => Ok (mkOut tr lw o TyProgram None None None None [])).
  Lemma forward_eq oid sg m c kws s :
    clash ["self"] kws || clash (firstn 3 (s_args sg)) (prog_kwargs sg kws) = false ->
    teq (forward (L := L) oid sg m c kws s)
        (tbind (exec (get_cond oid s) (m c (prog_kwargs sg kws)) []
                  (log_call (mkCall oid c (prog_kwargs sg kws) (get_cond oid s)) s))
           (fun x => after x (fun ot s1 => Leaf (prog_tail kws (get_cond oid s) ot, s1)))).
  Proof.
    intros Hc. unfold forward. fold (k_sd kws). fold (k_bd kws). fold (k_rep kws). fold (prog_kwargs sg kws). rewrite Hc.
    unfold mbind at 1. cbn [get tbind fst snd]. unfold mbind at 1. cbn [modify tbind fst snd]. unfold mbind at 1.
    apply teq_tbind; [apply teq_refl|]. intros [[[o tr]|e] s1]; cbn [fst snd after]; [|apply teq_refl].
    apply teq_eq. unfold after. cbn [fst snd prog_tail]. rewrite mbind_lift.
    destruct (log_joint _ _ _ _ _); reflexivity.
  Qed.
End RunEq.
