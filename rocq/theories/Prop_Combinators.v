(** Properties C05-C13, C40: the laws of Compose, Extend and Propose.
    [sub_kwargs (in_ix o) kws] are the keyword arguments handed on (Spec.v). *)
From Verif Require Import Thm_Propose.

(** ** C05 Compose law *)
Theorem C05_compose_law : forall (L : lib) oid q2 q1 o c kws s r s',
  wf_dict kws -> wf_st s -> returns (run (L := L) (ICompose oid q2 q1 o) c kws) s r s' ->
  exists o1 s1 o2,
    returns (run q1 c (sub_kwargs (in_ix o) kws)) s o1 s1 /\
    returns (run q2 (out_output o1) (sub_kwargs (in_ix o) kws)) s1 o2 s' /\
    is_union (out_trace o1) (out_trace o2) (out_trace r) /\
    out_lw r = tadd L (out_lw o1) (out_lw o2) /\
    out_output r = out_output o2 /\ out_type r = TyCompose.
Proof. exact compose_law. Qed.
Print Assumptions C05_compose_law.

(** an error of the first program is the error of the Compose, and nothing else is drawn *)
Theorem C05_compose_propagates_errors : forall (L : lib) oid q2 q1 o c kws s ds1 e s1,
  wf_dict kws -> clash ["self"; "c"; "fn"] kws = false ->
  path (run (L := L) q1 c (sub_kwargs (in_ix o) kws) s) ds1 (Err e, s1) ->
  path (run (ICompose oid q2 q1 o) c kws s) ds1 (Err e, s1).
Proof. exact compose_propagates. Qed.
Print Assumptions C05_compose_propagates_errors.

(** ** C06 Compose rejects overlapping addresses
    On the draws [ds1] of q1 followed by the draws [ds2] of q2 the call raises iff the two traces
    overlap (or the user's loss function raises). *)
Theorem C06_compose_overlap : forall (L : lib) oid q2 q1 o c kws s ds1 o1 s1 ds2 o2 s2,
  wf_dict kws -> wf_st s -> clash ["self"; "c"; "fn"] kws = false ->
  path (run (L := L) q1 c (sub_kwargs (in_ix o) kws) s) ds1 (Ok o1, s1) ->
  path (run q2 (out_output o1) (sub_kwargs (in_ix o) kws) s1) ds2 (Ok o2, s2) ->
  (~ disjoint_keys (out_trace o1) (out_trace o2) ->
     path (run (ICompose oid q2 q1 o) c kws s) (ds1 ++ ds2) (Err AssertionError, s2)) /\
  (disjoint_keys (out_trace o1) (out_trace o2) -> (forall r l, exists l', in_loss o r l = Ok l') ->
     exists r, path (run (ICompose oid q2 q1 o) c kws s) (ds1 ++ ds2) (Ok r, s2)).
Proof. exact compose_runs. Qed.
Print Assumptions C06_compose_overlap.

Definition compose_ex : inf ZL := ICompose 10 P_z P_xy opts0.
Example C05_call : exists o s', returns (run compose_ex VNone []) (st0 ZL) o s' /\
  (dkeys (out_trace o), fst (out_lw o)) = (["z"; "x"; "y"], (true, -4)%Z).
Proof. apply (seen_by (L := ZL) _ _ [zten 9; zten 8] (fun o _ => _)). vm_compute. reflexivity. Qed.
(** composing a program with itself overlaps *)
Example C06_overlap : exists s',
  path (run (ICompose 10 P_xy P_xy opts0) VNone [] (st0 ZL))
    [(DrawDist (L := ZL) 3%Z true VNone, zten 9); (DrawDist (L := ZL) 3%Z true VNone, zten 8)]
    (Err AssertionError, s').
Proof. apply (raised_by (L := ZL) _ _ [zten 9; zten 8]). vm_compute. reflexivity. Qed.

(** ** C07 Extend law
    [get_cond oid s] is the trace substituted for the Extend (None: no substitution); both
    programs run under it.  The hypothesis on [oid] says that the object is not a component of
    itself. *)
Theorem C07_extend_law : forall (L : lib) (HL : lib_laws L) oid p f o c kws s r s',
  wf_dict kws -> wf_st s -> ~ In oid (substituted (IExtend oid p f o)) ->
  returns (run (L := L) (IExtend oid p f o) c kws) s r s' ->
  exists po s1 fo s2,
    let cond := get_cond oid s in
    returns (run p c (sub_kwargs (in_ix o) kws)) (set_cond (oid_of f) cond (set_cond (oid_of p) cond s)) po s1 /\
    returns (run f (out_output po) (sub_kwargs (in_ix o) kws)) s1 fo s2 /\
    s' = set_cond (oid_of p) None (set_cond (oid_of f) None s2) /\
    out_lw r = tadd L (out_lw po)
      (logp_sum (kwarg "sample_dims" VNone kws) (kwarg "batch_dim" VNone kws) (fun _ _ => true) (out_trace fo)) /\
    is_union (out_trace po) (out_trace fo) (out_trace r) /\
    out_output r = out_output fo /\
    out_marginal r = Some (dkeys (out_trace po), out_output po) /\
    kernel_ok (is_some cond) po fo /\ out_type r = TyExtend /\ out_trace r = out_trace po ++ out_trace fo /\
    wf_dict (out_trace po) /\ wf_dict (out_trace fo).
Proof. exact extend_law. Qed.
Print Assumptions C07_extend_law.

Definition extend_ex : inf ZL := IExtend 11 P_xy P_z opts0.
Example C07_not_self_component : ~ In 11 (substituted extend_ex).
Proof. cbn. lia. Qed.
Example C07_call : exists o s', returns (run extend_ex VNone []) (st0 ZL) o s' /\
  (dkeys (out_trace o), fst (out_lw o)) = (["x"; "y"; "z"], (true, -20)%Z).
Proof. apply (seen_by (L := ZL) _ _ [zten 9; zten 8] (fun o _ => _)). vm_compute. reflexivity. Qed.
Example C07_wf_substitution : wf_st (st_cond 11 [("x", node 1); ("z", node 2)]).
Proof.
  intros i t H. unfold st_cond, get_cond, set_cond in H. cbn in H.
  destruct (Nat.eqb i 11); [|discriminate]. injection H as <-. repeat constructor; cbn; intuition discriminate.
Qed.
Example C07_call_under_substitution :
  exists o s', returns (run extend_ex VNone []) (st_cond 11 [("x", node 1); ("z", node 2)]) o s' /\
  fst (out_lw o) = (true, -12)%Z.
Proof. apply (seen_by (L := ZL) _ _ [] (fun o _ => _)). vm_compute. reflexivity. Qed.

(** ** C08 Extend enforces the kernel contract ([kernel_ok] in Spec.v)
    C07 says that a returning call satisfied it; conversely, on the draws of p followed by those
    of f, a violation raises, and without violation the call returns (unless the user's loss
    function raises or probtorch rejects a node). *)
Theorem C08_extend_contract : forall (L : lib) (HL : lib_laws L) oid p f o c kws s ds1 po s1 ds2 fo s2,
  wf_dict kws -> wf_st s -> clash ["self"; "c"; "fn"] kws = false ->
  ~ In oid (substituted (IExtend oid p f o)) ->
  let cond := get_cond oid s in
  let s' := set_cond (oid_of p) None (set_cond (oid_of f) None s2) in
  path (run (L := L) p c (sub_kwargs (in_ix o) kws) (set_cond (oid_of f) cond (set_cond (oid_of p) cond s))) ds1 (Ok po, s1) ->
  path (run f (out_output po) (sub_kwargs (in_ix o) kws) s1) ds2 (Ok fo, s2) ->
  (~ kernel_ok (is_some cond) po fo ->
     exists e, path (run (IExtend oid p f o) c kws s) (ds1 ++ ds2) (Err e, s')) /\
  (kernel_ok (is_some cond) po fo ->
   (forall r l, exists l', in_loss o r l = Ok l') ->
   (forall rep pv, lj_ok L (kwarg "reparameterized" (VBool true) kws) rep pv = true) ->
     exists r, path (run (IExtend oid p f o) c kws s) (ds1 ++ ds2) (Ok r, s')).
Proof. exact extend_runs. Qed.
Print Assumptions C08_extend_contract.

(** a kernel that observes is rejected *)
Example C08_observing_kernel : exists s',
  path (run (IExtend 11 P_z P_xy opts0) VNone [] (st0 ZL))
    [(DrawDist (L := ZL) 4%Z true VNone, zten 9); (DrawDist (L := ZL) 3%Z true VNone, zten 8)]
    (Err AssertionError, s').
Proof. apply (raised_by (L := ZL) _ _ [zten 9; zten 8]). vm_compute. reflexivity. Qed.

(** ** C09 Propose weight law *)
Theorem C09_propose_weight : forall (L : lib) (HL : lib_laws L) oid p q o nr c kws s r s',
  wf_dict kws -> wf_st s ->
  returns (run (L := L) (IPropose oid p q o None nr) c kws) s r s' ->
  exists qo s1 po s2,
    returns (run q c (sub_kwargs (in_ix o) kws)) s qo s1 /\
    returns (run p c (sub_kwargs (in_ix o) kws)) (set_cond (oid_of p) (Some (out_trace qo)) s1) po s2 /\
    s' = set_cond (oid_of p) None s2 /\
    out_lw r = detach L (tadd L (out_lw qo) (tsub L (out_lw po)
      (logp_sum (kwarg "sample_dims" VNone kws) (kwarg "batch_dim" VNone kws)
         (fun a v => is_observed v || latent_in (out_trace po) a) (out_trace qo)))).
Proof. exact propose_weight. Qed.
Print Assumptions C09_propose_weight.

(** the complete description of the result, also with a transf_q_trace; C10-C13 are parts of it *)
Theorem C09_propose_law : forall (L : lib) (HL : lib_laws L) oid p q o tf nr c kws s r s',
  wf_dict kws -> wf_st s ->
  returns (run (L := L) (IPropose oid p q o tf nr) c kws) s r s' ->
  exists qo s1 po s2 qt px mt mo,
    let sd := kwarg "sample_dims" VNone kws in
    let bd := kwarg "batch_dim" VNone kws in
    returns (run q c (sub_kwargs (in_ix o) kws)) s qo s1 /\
    returns (run p c (sub_kwargs (in_ix o) kws)) (set_cond (oid_of p) (Some (out_trace qo)) s1) po s2 /\
    s' = set_cond (oid_of p) None s2 /\
    wf_dict (out_trace qo) /\ wf_dict (out_trace po) /\ wf_st s1 /\
    apply_transf tf (out_trace qo) (firstn 5 (sub_kwargs (in_ix o) kws)) = Ok qt /\
    out_px r = Some px /\
    px_lv px = tsub L (out_lw po) (logp_sum sd bd (fun a _ => charged (out_trace qo) (out_trace po) a) qt) /\
    out_lw r = detach L (tadd L (out_lw qo) (px_lv px)) /\
    px_lw px = (if is_tensor L (out_lw qo) then detach L (out_lw qo) else to_tensor L (out_lw qo)) /\
    px_proposal_trace px = out_trace qo /\ px_target_trace px = out_trace po /\
    (forall a, In a (px_nodes px) <-> charged (out_trace qo) (out_trace po) a = true) /\
    target_part p po mt mo /\ wf_dict mt /\
    out_output r = detach_output mo /\
    (if nr then out_trace r = mt else detached_rerun mt (out_trace r)) /\
    forward_trace q qo = Ok (px_forward_trace px) /\ is_compose p = false.
Proof. exact propose_law. Qed.
Print Assumptions C09_propose_law.

(** a Propose whose proposal is a combinator returns whenever its two programs do, except for:
    a Compose target, a node or weight probtorch rejects, a loss function that raises *)
Theorem C09_propose_returns : forall (L : lib) (HL : lib_laws L) oid p q o nr c kws s ds1 qo s1 ds2 po s2,
  wf_dict kws -> wf_st s -> clash ["self"; "c"; "fn"] kws = false ->
  path (run (L := L) q c (sub_kwargs (in_ix o) kws) s) ds1 (Ok qo, s1) ->
  path (run p c (sub_kwargs (in_ix o) kws) (set_cond (oid_of p) (Some (out_trace qo)) s1)) ds2 (Ok po, s2) ->
  is_compose p = false ->
  (forall rep pv, lj_ok L (kwarg "reparameterized" (VBool true) kws) rep pv = true) ->
  (is_extend p = true -> out_marginal po <> None) ->
  (forall a v, In (a, v) (out_trace po) -> rv_den v <> OtherRV) ->
  (forall z, is_tensor L (tadd L (out_lw qo) (tsub L (out_lw po) z)) = true) ->
  match q with IProg _ _ _ => False | _ => True end ->
  (forall r l, exists l', in_loss o r l = Ok l') ->
  exists r, path (run (IPropose oid p q o None nr) c kws s) (ds1 ++ ds2) (Ok r, set_cond (oid_of p) None s2).
Proof. exact propose_runs. Qed.
Print Assumptions C09_propose_returns.

(** proposal: P_ax wrapped in a Resample-free combinator (Compose with an independent kernel) *)
Definition q_ex : inf ZL := ICompose 12 P_z P_ax opts0.
Definition propose_ex : inf ZL := IPropose 13 P_xy q_ex opts0 None false.
(** a = 6, x = 1, z = 9: weight = log p(x,y) - log q(x) = (-4 - 4) - 0; a and z are not charged *)
Example C09_call : exists o s', returns (run propose_ex VNone []) (st0 ZL) o s' /\
  (out_lw o, dkeys (out_trace o)) = ((true, -8, 0)%Z, ["x"; "y"]).
Proof. apply (seen_by (L := ZL) _ _ [zten 6; zten 1; zten 9] (fun o _ => _)). vm_compute. reflexivity. Qed.
Example C09_wf_fresh : wf_st (st0 ZL).
Proof. intros i t H. discriminate. Qed.

(** the hypotheses of C09_propose_returns in that call *)
Example C09_returns_hypotheses : exists ds1 qo s1 ds2 po s2,
  path (run q_ex VNone (sub_kwargs VNone []) (st0 ZL)) ds1 (Ok qo, s1) /\
  path (run P_xy VNone (sub_kwargs VNone []) (set_cond 1 (Some (out_trace qo)) s1)) ds2 (Ok po, s2) /\
  (forall rep pv, lj_ok ZL (VBool true) rep pv = true) /\
  (forall a v, In (a, v) (out_trace po) -> rv_den v <> OtherRV) /\
  (forall z, is_tensor ZL (tadd ZL (out_lw qo) (tsub ZL (out_lw po) z)) = true) /\
  (forall r l, exists l', in_loss opts0 r l = Ok l').
Proof.
  destruct (path2_by (L := ZL) (run q_ex VNone (sub_kwargs VNone [])) (st0 ZL) [zten 6; zten 1; zten 9]
    (fun _ => run P_xy VNone (sub_kwargs VNone [])) (fun qo s1 => set_cond 1 (Some (out_trace qo)) s1) []
    (fun qo po => (forallb (fun ar => match rv_den (snd ar) with OtherRV => false | _ => true end) (out_trace po),
                   is_tensor ZL (out_lw po))) (true, true)) as [ds1 [qo [s1 [ds2 [po [s2 [P1 [P2 F]]]]]]]].
  { vm_compute. reflexivity. }
  exists ds1, qo, s1, ds2, po, s2. split; [exact P1|]. split; [exact P2|]. clear P1 P2. injection F as F1 F2.
  split; [reflexivity|]. split; [|split].
  - intros a v Hi. rewrite forallb_forall in F1. specialize (F1 _ Hi). cbn in F1.
    destruct (rv_den v); discriminate.
  - intros z. cbn in *. destruct (out_lw qo) as [[b1 v1] g1], (out_lw po) as [[b2 v2] g2], z as [[b3 v3] g3].
    subst b2. cbn. destruct b1; reflexivity.
  - intros r l. exists l. reflexivity.
Qed.

(** ** C10 Propose computes an importance weight *)
Theorem C10_importance_weight : forall (L : lib) (HL : lib_laws L) oid pid sg m q o nr c kws s r s',
  wf_dict kws -> wf_st s ->
  returns (run (L := L) (IPropose oid (IProg pid sg m) q o None nr) c kws) s r s' ->
  exists qo s1 po s2 px,
    returns (run q c (sub_kwargs (in_ix o) kws)) s qo s1 /\
    returns (run (IProg pid sg m) c (sub_kwargs (in_ix o) kws)) (set_cond pid (Some (out_trace qo)) s1) po s2 /\
    out_px r = Some px /\
    ((forall a, latent_in (out_trace po) a = true -> latent_in (out_trace qo) a = true) ->
     px_lv px = tsub L
       (logp_sum (kwarg "sample_dims" VNone kws) (kwarg "batch_dim" VNone kws) (fun _ _ => true) (out_trace po))
       (logp_sum (kwarg "sample_dims" VNone kws) (kwarg "batch_dim" VNone kws)
          (fun a v => is_observed v || latent_in (out_trace po) a) (out_trace qo))).
Proof. exact propose_importance. Qed.
Print Assumptions C10_importance_weight.

(** in the call of C09_call the target's only latent x is latent in the proposal *)
Example C10_covered : exists po s',
  path (run P_xy VNone (sub_kwargs VNone []) (st_cond 1 [("z", node 9); ("a", node 6); ("x", node 1)])) [] (Ok po, s') /\
  forall a, latent_in (out_trace po) a = true -> latent_in [("z", node 9); ("a", node 6); ("x", node 1)] a = true.
Proof.
  eexists _, _. split; [apply (walkd_path (L := ZL) _ []); reflexivity|].
  intros a. cbn. unfold latent_in. cbn. destruct (String.eqb_spec a "x") as [->|H]; [reflexivity|].
  destruct (String.eqb a "y"); intros H'; discriminate.
Qed.

(** ** C11 Propose returns the target's marginal *)
Theorem C11_target_not_extend : forall (L : lib) (HL : lib_laws L) oid p q o tf nr c kws s r s',
  wf_dict kws -> wf_st s -> is_extend p = false ->
  returns (run (L := L) (IPropose oid p q o tf nr) c kws) s r s' ->
  exists qo s1 po s2,
    returns (run q c (sub_kwargs (in_ix o) kws)) s qo s1 /\
    returns (run p c (sub_kwargs (in_ix o) kws)) (set_cond (oid_of p) (Some (out_trace qo)) s1) po s2 /\
    (if nr then out_trace r = out_trace po else detached_rerun (out_trace po) (out_trace r)) /\
    out_output r = detach_output (out_output po).
Proof. exact propose_target. Qed.
Print Assumptions C11_target_not_extend.

(** target Extend(p', f'): exactly the trace and the output of p' *)
Theorem C11_target_extend : forall (L : lib) (HL : lib_laws L) oid pid p' f' o' q o tf nr c kws s r s',
  wf_dict kws -> wf_st s -> ~ In pid (substituted (IExtend pid p' f' o')) ->
  returns (run (L := L) (IPropose oid (IExtend pid p' f' o') q o tf nr) c kws) s r s' ->
  exists qo s1 po s2,
    returns (run q c (sub_kwargs (in_ix o) kws)) s qo s1 /\
    (let t := Some (out_trace qo) in
     returns (run p' c (sub_kwargs (in_ix o') (sub_kwargs (in_ix o) kws)))
       (set_cond (oid_of f') t (set_cond (oid_of p') t (set_cond pid t s1))) po s2) /\
    (if nr then out_trace r = out_trace po else detached_rerun (out_trace po) (out_trace r)) /\
    out_output r = detach_output (out_output po).
Proof. exact propose_marginal. Qed.
Print Assumptions C11_target_extend.

Definition propose_ext_ex : inf ZL := IPropose 14 extend_ex q_ex opts0 None true.
Example C11_call : exists o s', returns (run propose_ext_ex VNone []) (st0 ZL) o s' /\
  (dkeys (out_trace o), out_output o) = (["x"; "y"], VDict [("x", VTensor (true, 1, 0)%Z)]).
Proof. apply (seen_by (L := ZL) _ _ [zten 6; zten 1; zten 9] (fun o _ => _)). vm_compute. reflexivity. Qed.

(** ** C12 Propose reports consistent objective data *)
Theorem C12_objective_data : forall (L : lib) (HL : lib_laws L) oid p q o tf nr c kws s r s',
  wf_dict kws -> wf_st s ->
  returns (run (L := L) (IPropose oid p q o tf nr) c kws) s r s' ->
  exists qo s1 po s2 px,
    returns (run q c (sub_kwargs (in_ix o) kws)) s qo s1 /\
    returns (run p c (sub_kwargs (in_ix o) kws)) (set_cond (oid_of p) (Some (out_trace qo)) s1) po s2 /\
    out_px r = Some px /\
    px_lw px = (if is_tensor L (out_lw qo) then detach L (out_lw qo) else to_tensor L (out_lw qo)) /\
    out_lw r = detach L (tadd L (out_lw qo) (px_lv px)) /\
    px_proposal_trace px = out_trace qo /\ px_target_trace px = out_trace po /\
    (forall a, In a (px_nodes px) <->
       exists v, dget a (out_trace qo) = Some v /\
                 (rv_prov v = OBSERVED \/ (rv_prov v <> OBSERVED /\ latent_in (out_trace po) a = true))).
Proof. exact propose_objective_data. Qed.
Print Assumptions C12_objective_data.

Example C12_call : exists o s', returns (run propose_ext_ex VNone []) (st0 ZL) o s' /\
  option_map (fun px => (px_nodes px, dkeys (px_target_trace px), dkeys (px_proposal_trace px))) (out_px o) =
  Some (["z"; "x"], ["x"; "y"; "z"], ["z"; "a"; "x"]).
Proof. apply (seen_by (L := ZL) _ _ [zten 6; zten 1; zten 9] (fun o _ => _)). vm_compute. reflexivity. Qed.

(** the forward trace: for a proposal Compose(q2, q1) made with _debug, the trace of q2's run in
    this very call; nothing for other proposals *)
Theorem C12_forward_trace : forall (L : lib) oid p q o tf nr c kws s r s',
  wf_dict kws -> wf_st s ->
  returns (run (L := L) (IPropose oid p q o tf nr) c kws) s r s' ->
  exists px, out_px r = Some px /\
  match q with
  | ICompose cid q2 q1 o' =>
      if in_debug o' then
        exists o1 s1 o2 s2,
          returns (run q1 c (sub_kwargs (in_ix o') (sub_kwargs (in_ix o) kws))) s o1 s1 /\
          returns (run q2 (out_output o1) (sub_kwargs (in_ix o') (sub_kwargs (in_ix o) kws))) s1 o2 s2 /\
          is_union (out_trace o1) (out_trace o2) (px_proposal_trace px) /\
          px_forward_trace px = Some (out_trace o2)
      else px_forward_trace px = None
  | _ => px_forward_trace px = None
  end.
Proof.
  intros L oid p q o tf nr c kws s r s' Hk Hs H.
  apply run_propose_returns in H; [|exact Hk|].
  2:{ intros qo' s3 Hq'. exact (proj1 (run_returns_wf _ _ _ _ _ _ (wf_sub_kwargs _ _ Hk) Hs Hq')). }
  destruct H as (qo & s1 & po & s2 & qt & lu & mo & mt & tr & pt & tt' & fw & l & _ & _ & _ & Hq & _ & _ & _ & _ & _ & _ & _ & Hpt & _ & Hf & _ & ->).
  eexists. split; [match goal with |- out_px (add_subs ?d ?sb ?x) = _ => destruct (sd_fields L d sb x) as (_ & _ & _ & _ & _ & _ & _ & ->) end; reflexivity|].
  cbn [px_forward_trace px_proposal_trace]. unfold forward_trace in Hf. pose proof (wf_sub_kwargs (in_ix o) kws Hk) as Hk'.
  assert (Wq : wf_dict (out_trace qo)) by exact (proj1 (run_returns_wf _ _ _ _ _ _ Hk' Hs Hq)).
  assert (Ept : pt = out_trace qo) by (rewrite copytraces_one in Hpt by exact Wq; congruence). subst pt.
  destruct q as [qid sg m|qid q ix l0 rs dbg|qid p' f o'|qid q2 q1 o'|qid p' q' o' tf' nr']; cbn [debug_attr rbind] in Hf; [discriminate| | | |].
  - apply run_resample_returns in Hq; [|exact Hk'].
    destruct Hq as (qo' & s3 & items & lw2 & c1 & c2 & st2 & _ & _ & _ & _ & _ & _ & _ & ->).
    match type of Hf with context [out_type (add_subs ?d ?sb ?x)] => destruct (sd_fields L d sb x) as (_ & _ & _ & E & _); rewrite E in Hf end.
    cbn [out_type] in Hf. destruct dbg; congruence.
  - apply run_extend_returns in Hq; [|exact Hk'|exact Hs].
    destruct Hq as (po' & s3 & fo & s4 & lu' & tr' & l' & _ & _ & _ & _ & _ & _ & _ & _ & _ & _ & _ & ->).
    match type of Hf with context [out_type (add_subs ?d ?sb ?x)] => destruct (sd_fields L d sb x) as (_ & _ & _ & E & _); rewrite E in Hf end.
    cbn [out_type with_loss] in Hf. destruct (in_debug o'); congruence.
  - destruct (in_debug o') eqn:Ed; [|congruence].
    pose proof (run_compose_returns _ _ _ _ _ _ _ _ _ Hk' Hq) as Hc.
    destruct Hc as (o1 & s3 & o2 & tr' & l' & _ & _ & H1 & H2 & Hd & Ht & _ & E). exists o1, s3, o2, s1.
    split; [exact H1|]. split; [exact H2|]. rewrite E in Hf |- *. rewrite Ed, orb_true_r in *. cbn in Hf. split; [|congruence].
    cbn [add_subs with_loss out_trace].
    destruct (run_returns_wf _ _ _ _ _ _ (wf_sub_kwargs _ _ Hk') Hs H1) as [W1 S1].
    destruct (run_returns_wf _ _ _ _ _ _ (wf_sub_kwargs _ _ Hk') S1 H2) as [W2 _].
    rewrite copytraces_two_disjoint in Ht by assumption. injection Ht as <-. apply is_union_sym, is_union_app; exact Hd.
  - apply run_propose_returns in Hq; [|exact Hk'|].
    2:{ intros qo' s3 Hq'. exact (proj1 (run_returns_wf _ _ _ _ _ _ (wf_sub_kwargs _ _ Hk') Hs Hq')). }
    destruct Hq as (qo' & s3 & po' & s4 & qt' & lu' & mo' & mt' & tr' & pt' & tt'' & fw' & l' & _ & _ & _ & _ & _ & _ & _ & _ & _ & _ & _ & _ & _ & _ & _ & ->).
    match type of Hf with context [out_type (add_subs ?d ?sb ?x)] => destruct (sd_fields L d sb x) as (_ & _ & _ & E & _); rewrite E in Hf end.
    cbn [out_type with_loss] in Hf. destruct (in_debug o'); congruence.
Qed.
Print Assumptions C12_forward_trace.
Example C12_forward_call :
  exists o s', returns (run (IPropose 14 extend_ex (ICompose 12 P_z P_ax (mkOpts (in_loss opts0) (in_loss0 opts0) (in_ix opts0) true)) opts0 None true) VNone []) (st0 ZL) o s' /\
  option_map (fun px => option_map dkeys (px_forward_trace px)) (out_px o) = Some (Some ["z"]).
Proof. apply (seen_by (L := ZL) _ _ [zten 6; zten 1; zten 9] (fun o _ => _)). vm_compute. reflexivity. Qed.

(** ** C13 Propose stops gradients *)
Theorem C13_no_gradient : forall (L : lib) (HL : lib_laws L) (G : grad_view L) oid p q o tf nr c kws s r s',
  wf_dict kws -> wf_st s ->
  returns (run (L := L) (IPropose oid p q o tf nr) c kws) s r s' ->
  no_grad G (out_lw r) /\
  output_no_grad G (out_output r) /\
  (nr = false -> forall a v, In (a, v) (out_trace r) ->
     no_grad G (rv_value v) /\
     match rv_den v with
     | Proper d => rv_logp v = logp L d (rv_value v)
     | Improper f => rv_logp v = f (rv_value v)
     | OtherRV => False
     end) /\
  exists qo s1 po s2 mt mo px,
    returns (run q c (sub_kwargs (in_ix o) kws)) s qo s1 /\
    returns (run p c (sub_kwargs (in_ix o) kws)) (set_cond (oid_of p) (Some (out_trace qo)) s1) po s2 /\
    target_part p po mt mo /\ out_px r = Some px /\
    val G (out_lw r) = val G (tadd L (out_lw qo) (px_lv px)) /\
    same_output G (out_output r) mo /\
    Forall2 (fun ar ar' => fst ar = fst ar' /\ val G (rv_value (snd ar)) = val G (rv_value (snd ar')))
      (out_trace r) mt.
Proof. exact propose_no_grad. Qed.
Print Assumptions C13_no_gradient.

Definition ZG : grad_view ZL :=
  mkGV (L := ZL) (bool * Z) (fun x : ZT => fst x) (fun x : ZT => snd x = 0%Z)
       (fun x : ZT => match x with (a, b, c) => eq_refl end) (fun x : ZT => match x with (a, b, c) => eq_refl end).
(** the values of the target's trace carry a gradient; those of the result do not *)
Example C13_call : exists o s', returns (run propose_ex VNone []) (st0 ZL) o s' /\
  (snd (out_lw o), option_map (fun px => map (fun ar => rv_value (snd ar)) (px_target_trace px)) (out_px o),
   map (fun ar => rv_value (snd ar)) (out_trace o)) =
  (0%Z, Some [(true, 1, 1); (true, 7, 1)]%Z, [(true, 1, 0); (true, 7, 0)]%Z).
Proof. apply (seen_by (L := ZL) _ _ [zten 6; zten 1; zten 9] (fun o _ => _)). vm_compute. reflexivity. Qed.

(** ** C40 Proposal may be a bare Program: refuted
    Propose reads q's _debug attribute, which a Program does not have: no call with a Program
    as proposal ever returns. *)
Theorem C40_bare_program_refuted : forall (L : lib) oid p qid sg m o tf nr c kws s r s',
  ~ returns (run (L := L) (IPropose oid p (IProg qid sg m) o tf nr) c kws) s r s'.
Proof. exact propose_program_never. Qed.
Print Assumptions C40_bare_program_refuted.

Example C40_witness : exists s',
  path (run (IPropose 13 P_xy P_ax opts0 None false) VNone [] (st0 ZL))
    [(DrawDist (L := ZL) 0%Z true VNone, zten 6); (DrawDist (L := ZL) 1%Z true VNone, zten 1)]
    (Err AttributeError, s').
Proof. apply (raised_by (L := ZL) _ _ [zten 6; zten 1]). vm_compute. reflexivity. Qed.
