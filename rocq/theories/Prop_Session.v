(** Properties C14-C20: scoping of substitution, independence of calls, sharing, keyword
    arguments, losses, _debug. *)
From Verif Require Import Thm_Calls Thm_Combinators Instances.

(** ** C14 Substitution is scoped, even on exceptions
    Whatever the outcome [r] (result or exception, raised anywhere): no object ends up
    conditioned under a trace it was not already conditioned under; objects that the call does
    not substitute into keep their conditioning; called in a state without conditioning, it
    leaves none; and when it returns, nothing it substituted into is conditioned. *)
Theorem C14_scoped : forall (L : lib) t c kws s (r : res (out L)) s',
  outcome (run t c kws s) (r, s') ->
  (forall i, get_cond i s' = get_cond i s \/ get_cond i s' = None) /\
  (forall i, ~ In i (substituted t) -> get_cond i s' = get_cond i s) /\
  (clean s -> clean s') /\
  (wf_dict kws -> wf_st s -> forall o, r = Ok o -> forall i, In i (substituted t) -> get_cond i s' = None).
Proof. intros L. exact scoped_all. Qed.
Print Assumptions C14_scoped.

(** a target that raises while it is conditioned *)
Definition raising_model : pyval ZT -> dict (pyval ZT) -> model ZL := fun _ _ =>
  MVar (L := ZL) "x" 3%Z None true (fun x => MRaise (L := ZL) RuntimeError).
Definition q_ax : inf ZL := ICompose 10 P_z P_ax opts0.
Example C14_raise_inside :
  (exists s', path (run (IPropose 11 (IProg (L := ZL) 4 sig_model raising_model) q_ax opts0 None false) VNone [] (st0 ZL))
     [(DrawDist (L := ZL) 0%Z true VNone, zten 1); (DrawDist (L := ZL) 1%Z true VNone, zten 2); (DrawDist (L := ZL) 4%Z true VNone, zten 3)]
     (Err RuntimeError, s')) /\ clean (st0 ZL).
Proof. split; [|intros i; reflexivity]. apply (raised_by (L := ZL) _ _ [zten 1; zten 2; zten 3]). vm_compute. reflexivity. Qed.

(** ** C15 Calls are independent of history
    After any history of calls (returning or raising, on any programs, sharing objects with
    this one or not) a call draws from the same distributions and ends with the same results,
    exceptions and store assignments as in a state that only remembers the global store. *)
Theorem C15_history_free : forall (L : lib) (s s' : st L) t c kws,
  clean s -> session s s' ->
  same_draws same_end (run t c kws s') (run t c kws (mkSt [] (store s') (hook s) [])).
Proof. intros L. exact session_fresh. Qed.
Print Assumptions C15_history_free.
(** a history with a call that raised, on an object used again by the next call *)
Example C15_after_exception : exists s',
  session (st0 ZL) s' /\ clean (st0 ZL) /\ s' <> st0 ZL.
Proof.
  destruct C14_raise_inside as [[s' H] _]. exists s'.
  assert (Ho : outcome (run (IPropose 11 (IProg (L := ZL) 4 sig_model raising_model) q_ax opts0 None false) VNone [] (st0 ZL)) (Err RuntimeError, s')).
  { eapply path_outcome, H. }
  split; [eapply session_call; [exact Ho|constructor]|]. split; [intros i; reflexivity|].
  intros ->. apply (run_calls (L := ZL)) in Ho; [|apply wf_nil].
  destruct Ho as (cs & l1 & l2 & E & _ & F & _). cbn in E.
  (* the log of the calls has grown *)
  assert (Hn : exists s'', path (run (IPropose 11 (IProg (L := ZL) 4 sig_model raising_model) q_ax opts0 None false) VNone [] (st0 ZL))
     [(DrawDist (L := ZL) 0%Z true VNone, zten 1); (DrawDist (L := ZL) 1%Z true VNone, zten 2); (DrawDist (L := ZL) 4%Z true VNone, zten 3)]
     (Err RuntimeError, s'') /\ length (calls s'') = 3).
  { destruct (walkd (run (IPropose 11 (IProg (L := ZL) 4 sig_model raising_model) q_ax opts0 None false) VNone [] (st0 ZL)) [zten 1; zten 2; zten 3])
      as [[ds [r s'']]|] eqn:Ew; [|vm_compute in Ew; discriminate].
    assert (E2 : option_map (fun x => length (calls (snd (snd x)))) (Some (ds, (r, s''))) = Some 3) by (rewrite <- Ew; vm_compute; reflexivity).
    injection E2 as E2. exists s''. split; [|exact E2].
    pose proof (walkd_path _ _ _ _ Ew) as Hp.
    assert (E3 : option_map (fun x => (fst x, match fst (snd x) with Ok _ => None | Err e => Some e end)) (Some (ds, (r, s''))) =
       Some ([(DrawDist (L := ZL) 0%Z true VNone, zten 1); (DrawDist (L := ZL) 1%Z true VNone, zten 2); (DrawDist (L := ZL) 4%Z true VNone, zten 3)], Some RuntimeError))
      by (rewrite <- Ew; vm_compute; reflexivity).
    injection E3 as E3 E4. destruct r as [|e]; [discriminate|]. injection E4 as ->. rewrite E3 in Hp. exact Hp. }
  destruct Hn as (s'' & Hp & Hl). pose proof (path_fun _ _ _ _ H Hp) as E'. injection E' as <-. discriminate.
Qed.

(** ** C16 Sharing one Program instance is harmless: refuted
    In Extend(Extend(A, B), B) with one instance B, run as the target of a Propose, leaving the
    inner Extend removes B's conditioning, so that the outer use of B samples afresh instead of
    reusing the proposal's value: with three draws the program with distinct instances returns,
    while the one with the shared instance goes on drawing. *)
Definition kernel_model : pyval ZT -> dict (pyval ZT) -> model ZL := fun c _ =>
  let name := match c with VDict [(k, _)] => if String.eqb k "x" then "z1" else "z2" | _ => "z2" end in
  MVar (L := ZL) name 4%Z None true (fun z => MRet (L := ZL) (VDict [(name, VTensor z)])).
Definition x_model : pyval ZT -> dict (pyval ZT) -> model ZL := fun _ _ =>
  MVar (L := ZL) "x" 3%Z None true (fun x => MRet (L := ZL) (VDict [("x", VTensor x)])).
Definition zz_model : pyval ZT -> dict (pyval ZT) -> model ZL := fun _ _ =>
  MVar (L := ZL) "z1" 1%Z None true (fun z => MVar (L := ZL) "z2" 2%Z None true (fun z => MRet (L := ZL) (VDict []))).
Definition chain (b1 b2 : nat) : inf ZL :=
  IPropose 20
    (IExtend 21 (IExtend 22 (IProg (L := ZL) 23 sig_model x_model) (IProg (L := ZL) b1 sig_model kernel_model) opts0)
             (IProg (L := ZL) b2 sig_model kernel_model) opts0)
    (ICompose 26 (IProg (L := ZL) 27 sig_model zz_model) (IProg (L := ZL) 28 sig_model x_model) opts0) opts0 None false.

Theorem C16_sharing_refuted : exists (L : lib) (t t' : inf L) c s ds r s',
  same_shape t t' /\ consistent t /\ NoDup (map oid_of (parts t')) /\ clean s /\
  path (run t' c [] s) ds (Ok r, s') /\
  (forall x, ~ path (run t c [] s) ds x) /\
  ~ same_draws (fun _ _ => True) (run t c [] s) (run t' c [] s).
Proof.
  exists ZL, (chain 24 24), (chain 24 25), VNone, (st0 ZL).
  destruct (walkd (run (chain 24 25) VNone [] (st0 ZL)) [zten 1; zten 2; zten 3]) as [[ds [r s']]|] eqn:E.
  2:{ exfalso. apply (f_equal (fun x => match x with Some _ => true | None => false end)) in E. vm_compute in E. discriminate. }
  assert (Eo : match r with Ok _ => true | Err _ => false end = true /\ map snd ds = [zten 1; zten 2; zten 3]).
  { assert (E2 : option_map (fun x => (match fst (snd x) with Ok _ => true | Err _ => false end, map snd (fst x))) (Some (ds, (r, s'))) = Some (true, [zten 1; zten 2; zten 3]))
      by (rewrite <- E; vm_compute; reflexivity).
    injection E2. tauto. }
  destruct Eo as [Eo Ed]. destruct r as [r|]; [|discriminate].
  assert (Hn : forall x, ~ path (run (chain 24 24) VNone [] (st0 ZL)) ds x).
  { intros x Hx. apply path_walk in Hx. rewrite Ed in Hx.
    apply (f_equal (fun x => match x with Some _ => true | None => false end)) in Hx. vm_compute in Hx. discriminate. }
  exists ds, r, s'. split; [repeat split|]. split.
  { intros u v Hu Hv. cbn in Hu, Hv.
    repeat (destruct Hu as [<-|Hu]; [repeat (destruct Hv as [<-|Hv]; [intros [=]; reflexivity|]); contradiction|]). contradiction. }
  split; [cbn; repeat constructor; cbn; intuition discriminate|].
  split; [intros i; reflexivity|]. split; [apply (walkd_path _ _ _ _ E)|]. split; [exact Hn|].
  intros Hs. apply walkd_path in E.
  destruct (sd_path' _ _ _ Hs _ _ E) as (x & Hx & _). exact (Hn x Hx).
Qed.
Print Assumptions C16_sharing_refuted.

(** Sharing is harmless in programs where no program is a component of itself and, in an Extend
    that may run under substitution, neither part is a component of the other: then the
    program behaves like any program equal to it up to object identity, [t'] satisfying the
    same condition...  Missing from the full property: programs that are not [well_scoped], for
    which it is false (above). *)
Theorem C16_sharing_partial : forall (L : lib) (t t' : inf L) c kws s s',
  same_shape t t' -> well_scoped false t -> well_scoped false t' -> clean s -> clean s' ->
  store s = store s' -> hook s = hook s' ->
  same_draws same_end (run t c kws s) (run t' c kws s').
Proof. intros L. exact run_sharing. Qed.
Print Assumptions C16_sharing_partial.
(** ... in particular like one made of distinct instances. *)
Theorem C16_distinct_instances_partial : forall (L : lib) (t t' : inf L) c kws s,
  same_shape t t' -> well_scoped false t -> NoDup (map oid_of (parts t')) -> clean s ->
  same_draws same_end (run t c kws s) (run t' c kws s).
Proof.
  intros L t t' c kws s H1 H2 H3 H4. apply run_sharing; try assumption; try reflexivity. apply distinct_well_scoped, H3.
Qed.
Print Assumptions C16_distinct_instances_partial.
(** one instance of a program as kernel and inside the proposal *)
Example C16_shared_kernel :
  let t b := IPropose 20 (IExtend 21 (IProg (L := ZL) 23 sig_model x_model) (IProg (L := ZL) 24 sig_model kernel_model) opts0)
               (ICompose 26 (IProg (L := ZL) b sig_model kernel_model) (IProg (L := ZL) 28 sig_model x_model) opts0) opts0 None false in
  same_shape (t 24) (t 27) /\ well_scoped false (t 24) /\ NoDup (map oid_of (parts (t 27))).
Proof.
  cbn. repeat split; try (cbn; intuition discriminate). repeat constructor; cbn; intuition discriminate.
Qed.

(** ** C17 Index and keyword arguments reach every program
    The user models invoked by a call are, in order, those of its [leaves] (all of them if it
    returned, an initial segment if it raised), each with exactly the keyword arguments it
    accepts out of those it is [offered]. *)
Theorem C17_kwargs_reach : forall (L : lib) t c kws s (r : res (out L)) s',
  wf_dict kws -> outcome (run t c kws s) (r, s') ->
  exists cs ls1 ls2, calls s' = calls s ++ cs /\ leaves [] t = ls1 ++ ls2 /\
    Forall2 (call_matches kws) ls1 cs /\ (forall o, r = Ok o -> ls2 = []).
Proof. intros L. exact run_calls. Qed.
Print Assumptions C17_kwargs_reach.
(** and every combinator's result reports the kind of the combinator and its index: its own one,
    else that of the call *)
Definition own_index {L} (t : inf L) : pyval (T L) :=
  match t with
  | IProg _ _ _ => VNone
  | IResample _ _ ix _ _ _ => ix
  | IExtend _ _ _ o | ICompose _ _ _ o | IPropose _ _ _ o _ _ => in_ix o
  end.
Theorem C17_reported_index : forall (L : lib) (t : inf L) c kws s r s',
  wf_dict kws -> wf_st s -> returns (run t c kws) s r s' ->
  match t with
  | IProg _ _ _ => out_type r = TyProgram /\ out_ix r = None
  | _ => out_type r = match t with IResample _ _ _ _ _ _ => TyResample | IExtend _ _ _ _ => TyExtend
                                 | ICompose _ _ _ _ => TyCompose | _ => TyPropose end /\
         out_ix r = Some (match own_index t with VNone => kwarg "ix" VNone kws | v => v end)
  end.
Proof.
  intros L t c kws s r s' Hk Hs H.
  destruct t as [qid sg m|qid q ix l0 rs dbg|qid p f o|qid q2 q1 o|qid p q o tf nr]; cbn [own_index].
  - apply forward_returns in H. destruct H as (? & ? & ? & ? & ? & _ & _ & _ & _ & _ & _ & _ & ->). split; reflexivity.
  - apply run_resample_returns in H; [|exact Hk].
    destruct H as (qo' & s3 & items & lw2 & c1 & c2 & st2 & _ & _ & _ & _ & _ & _ & _ & ->).
    match goal with |- context [add_subs ?d ?sb ?x] => destruct (sd_fields L d sb x) as (_ & _ & _ & -> & -> & _) end.
    cbn [out_type out_ix]. split; [reflexivity|]. f_equal. match goal with |- (if is_none ?v then _ else _) = _ => destruct v; reflexivity end.
  - apply run_extend_returns in H; [|exact Hk|exact Hs].
    destruct H as (po' & s3 & fo & s4 & lu' & tr' & l' & _ & _ & _ & _ & _ & _ & _ & _ & _ & _ & _ & ->).
    match goal with |- context [add_subs ?d ?sb ?x] => destruct (sd_fields L d sb x) as (_ & _ & _ & -> & -> & _) end.
    cbn [out_type out_ix with_loss]. split; [reflexivity|]. f_equal. match goal with |- (if is_none ?v then _ else _) = _ => destruct v; reflexivity end.
  - apply run_compose_returns in H; [|exact Hk].
    destruct H as (o1 & s3 & o2 & tr' & l' & _ & _ & H1 & H2 & Hd & Ht & _ & ->).
    match goal with |- context [add_subs ?d ?sb ?x] => destruct (sd_fields L d sb x) as (_ & _ & _ & -> & -> & _) end.
    cbn [out_type out_ix with_loss]. split; [reflexivity|]. f_equal. match goal with |- (if is_none ?v then _ else _) = _ => destruct v; reflexivity end.
  - apply run_propose_returns in H; [|exact Hk|].
    2:{ intros qo' s3 Hq'. exact (proj1 (run_returns_wf _ _ _ _ _ _ (wf_sub_kwargs _ _ Hk) Hs Hq')). }
    destruct H as (qo' & s3 & po' & s4 & qt' & lu' & mo' & mt' & tr' & pt' & tt'' & fw' & l' & _ & _ & _ & _ & _ & _ & _ & _ & _ & _ & _ & _ & _ & _ & _ & ->).
    match goal with |- context [add_subs ?d ?sb ?x] => destruct (sd_fields L d sb x) as (_ & _ & _ & -> & -> & _) end.
    cbn [out_type out_ix with_loss]. split; [reflexivity|]. f_equal. match goal with |- (if is_none ?v then _ else _) = _ => destruct v; reflexivity end.
Qed.
Print Assumptions C17_reported_index.
(** three models with different signatures, two of them below a combinator with an index *)
Example C17_indices :
  let t := IExtend (L := ZL) 1 (IResample 2 (IProg (L := ZL) 3 (mkSig ["self"; "trace"; "c"; "ix"] ["temp"] false) xy_model)
                (VInt 7) None (mkRS (L := ZL) (mkSig ["self"] [] true) (fun tr lw _ => Leaf (Ok (tr, lw)))) false)
             (IProg (L := ZL) 4 sig_model z_model) (mkOpts (L := ZL) default_loss None (VInt 9) false) in
  let kws := [("temp", VInt 5); ("other", VInt 6)] in
  exists o s', returns (run t VNone kws) (st0 ZL) o s' /\
    map (fun cl => (call_oid cl, call_kwargs cl)) (calls s') =
      [(3, [("ix", VInt 7); ("temp", VInt 5)]);
       (4, [("sample_dims", VNone); ("batch_dim", VNone); ("reparameterized", VBool true);
            ("_debug", VBool false); ("ix", VInt 9); ("temp", VInt 5); ("other", VInt 6)])] /\ out_ix o = Some (VInt 9).
Proof.
  intros t kws. destruct (seen_by (L := ZL) (run t VNone kws) (st0 ZL) [zten 9; zten 8] (fun o s' => (map (fun cl => (call_oid cl, call_kwargs cl)) (calls s'), out_ix o))
    ([(3, [("ix", VInt 7); ("temp", VInt 5)]);
      (4, [("sample_dims", VNone); ("batch_dim", VNone); ("reparameterized", VBool true);
            ("_debug", VBool false); ("ix", VInt 9); ("temp", VInt 5); ("other", VInt 6)])], Some (VInt 9))) as (o & s' & H & E); [vm_compute; reflexivity|].
  exists o, s'. injection E as E1 E2. auto.
Qed.

(** ** C18 dispatch passes exactly the acceptable keyword arguments *)
Theorem C18_dispatch : forall V fn (kws : dict V), wf_dict kws ->
  wf_dict (dispatch_kwargs fn kws) /\
  forall k v, dget k (dispatch_kwargs fn kws) = Some v <-> callee_accepts fn k /\ dget k kws = Some v.
Proof. intros V. exact dispatch_spec. Qed.
Print Assumptions C18_dispatch.
Example C18_partial_signature :
  dispatch_kwargs (mkCallee (mkSig ["self"; "x"] [] false) (Some (mkSig ["self"] ["y"] false)) None)
    [("x", 1); ("y", 2); ("z", 3)] = [("y", 2); ("x", 1)].
Proof. reflexivity. Qed.

(** ** C19 Loss is a fold along the proposal spine
    A Program's result has no loss.  The loss of a combinator's result is the right fold of the
    loss functions of its spine over the results [rs] of the combinators of the spine (the
    first of which is this result), starting from the innermost loss0. *)
Theorem C19_loss : forall (L : lib) t c kws s (r : out L) s',
  wf_dict kws -> wf_st s -> returns (run t c kws) s r s' ->
  match t with
  | IProg _ _ _ => out_loss r = None
  | _ => exists rs l,
           Forall2 (fun u ru => exists kws s o s', returns (run u c kws) s o s' /\ ru = before_loss o) (spine t) rs /\
           hd_error rs = Some (before_loss r) /\
           fold_losses (map loss_fn (spine t)) rs (spine_loss0 t) = Ok l /\ out_loss r = Some l
  end.
Proof. intros L. exact run_loss. Qed.
Print Assumptions C19_loss.
(** a loss that adds 1 at the Propose and the weight at the Extend below, from loss0 = 100 *)
Example C19_two_losses :
  let t := IPropose (L := ZL) 30 P_xy
     (IExtend 31 P_ax P_z (mkOpts (L := ZL) (fun o l => Ok (tadd ZL l (out_lw o))) (Some (zten 100)) VNone false))
     (mkOpts (L := ZL) (fun _ l => Ok (tadd ZL l (zten 1))) None VNone false) None false in
  exists o s', returns (run t VNone []) (st0 ZL) o s' /\ option_map (fun l : ZT => snd (fst l)) (out_loss o) = Some 100%Z.
Proof.
  apply (seen_by (L := ZL) _ _ [zten 1; zten 2; zten 3] (fun (o : out ZL) _ => option_map (fun l : ZT => snd (fst l)) (out_loss o))).
  vm_compute. reflexivity.
Qed.

(** ** C20 _debug only adds information
    Keyword arguments that differ only in _debug lead to the same draws and to results that
    differ at most in their intermediate results (same exceptions, same store). *)
Theorem C20_debug_neutral : forall (L : lib) (t : inf L) c kws kws' s,
  debug_blind t -> wf_dict kws -> wf_dict kws' -> no_debug kws = no_debug kws' ->
  same_draws same_but_subs (run t c kws s) (run t c kws' s).
Proof. intros L. exact run_debug_same. Qed.
Print Assumptions C20_debug_neutral.
(** The intermediate results are there exactly when debugging, under the documented names, and
    are results of the component programs. *)
Theorem C20_debug_adds : forall (L : lib) t c kws s (r : out L) s',
  wf_dict kws -> wf_st s -> returns (run t c kws) s r s' ->
  if debugging t kws
  then Forall2 (fun np nr => fst nr = fst np /\
         exists c' kws' s1 s2, returns (run (snd np) c' kws') s1 (snd nr) s2) (intermediate t) (out_subs r)
  else out_subs r = [].
Proof. intros L. exact run_reports. Qed.
Print Assumptions C20_debug_adds.
Example C20_blind_program :
  debug_blind (IPropose 11 P_xy q_ax opts0 None false) /\ wf_dict (V := pyval ZT) [("_debug", VBool true)] /\ wf_dict (V := pyval ZT) [] /\
  no_debug (V := pyval ZT) [("_debug", VBool true)] = no_debug [] /\
  exists o s', returns (run (IPropose 11 P_xy q_ax opts0 None false) VNone [("_debug", VBool true)]) (st0 ZL) o s' /\
    map (fun nr => (fst nr, map fst (out_subs (snd nr)))) (out_subs o) = [("q_out", ["q1_out"; "q2_out"]); ("p_out", [])].
Proof.
  split; [cbn; repeat split; cbn; intuition discriminate|].
  split; [repeat constructor; cbn; tauto|]. split; [constructor|]. split; [reflexivity|].
  apply (seen_by (L := ZL) _ _ [zten 1; zten 2; zten 3] (fun o _ => map (fun nr => (fst nr, map fst (out_subs (snd nr)))) (out_subs o))).
  vm_compute. reflexivity.
Qed.
