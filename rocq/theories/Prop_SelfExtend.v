(** Property C101 for extended targets. *)
From Verif Require Import Thm_Program Thm_Combinators Thm_Session Prop_Algebra Prop_Combinators Prop_Replay Prop_ReplayExtend Prop_SelfPropose SpecReplay.

(** C101 with a target that is a program extended by a kernel: if every trace of the proposal has the
    variables of some run of the extended program, the incremental weight is one; the output is that of the
    program without the kernel. *)
Theorem C101_extended : forall (L : lib) (HL : lib_laws L) oid eid pid fid sg sgf
    (m mf : pyval (T L) -> dict (pyval (T L)) -> model L) oe q o nr c kws s r s',
  let p := IExtend eid (IProg pid sg m) (IProg fid sgf mf) oe in
  (forall c kws, statements (m c kws)) -> (forall c kws, statements (mf c kws)) ->
  eid <> pid -> eid <> fid -> wf_dict kws -> clash ["self"; "c"; "fn"] kws = false -> wf_st s ->
  (forall r l, exists l', in_loss oe r l = Ok l') ->
  (forall rep pv, lj_ok L (kwarg "reparameterized" (VBool true) kws) rep pv = true) ->
  (forall qo s1, returns (run q c (sub_kwargs (in_ix o) kws)) s qo s1 -> exists s0 r0 s0',
     wf_st s0 /\ get_cond eid s0 = None /\ store s0 = store s1 /\
     returns (run p c (sub_kwargs (in_ix o) kws)) s0 r0 s0' /\ covers (out_trace qo) (out_trace r0)) ->
  returns (run (IPropose oid p q o None nr) c kws) s r s' ->
  exists qo s1 px x s0 r0 s0' own v,
    returns (run q c (sub_kwargs (in_ix o) kws)) s qo s1 /\
    out_px r = Some px /\ px_lv px = tsub L x x /\ out_lw r = detach L (tadd L (out_lw qo) (tsub L x x)) /\
    returns (run p c (sub_kwargs (in_ix o) kws)) s0 r0 s0' /\ covers (out_trace qo) (out_trace r0) /\
    out_marginal r0 = Some (own, v) /\ out_output r = detach_output v /\
    dkeys (out_trace r) = filter (fun a => mem a own) (dkeys (out_trace r0)).
Proof.
  intros L HL oid eid pid fid sg sgf m mf oe q o nr c kws s r s' p Hm Hmf N1 N2 Hk Hcl Hs Hloss Hlj Hq H.
  destruct (C09_propose_law L HL oid _ q o None nr c kws s r s' Hk Hs H) as (qo & s1 & po & s2 & qt & px & mt & mo & Hl).
  cbn zeta in Hl. destruct Hl as (Hqr & Hpr & _ & Hwq & Hwp & Hw1 & Etf & Epx & Elv & Elw & _ & _ & _ & _ & Htp & Hwm & Eout & Etr & _).
  cbn [apply_transf] in Etf. injection Etf as <-. destruct (Hq qo s1 Hqr) as (s0 & r0 & s0' & Hw & Hc & Hst & Hf & Hcov).
  pose proof (wf_sub_kwargs (in_ix o) kws Hk) as Hk'.
  pose proof (proj1 (run_returns_wf _ _ _ _ _ _ Hk' Hw Hf)) as Hw0.
  cbn [oid_of p] in Hpr.
  destruct (C100_extend L HL eid pid fid sg sgf m mf oe c (sub_kwargs (in_ix o) kws) s0 r0 s0' (set_cond eid (Some (out_trace qo)) s1) (out_trace qo)
    Hm Hmf N1 N2 Hk' (clash_again _ _ Hcl) Hw) as (o' & s2' & own & v & Hp & Eo & Et & Em0 & Em' & Ew & _).
  - apply wf_set_cond; [exact Hw1|]. intros tr E. injection E as <-. exact Hwq.
  - exact Hloss.
  - exact Hlj.
  - exact Hc.
  - exact Hf.
  - apply get_set_same.
  - symmetry. exact Hst.
  - apply covers_agrees, Hcov.
  - rewrite (covers_draws L _ _ Hw0 Hcov) in Hp.
    assert (po = o').
    { unfold returns in Hpr. fold p in Hp. revert Hp Hpr. generalize (run p c (sub_kwargs (in_ix o) kws) (set_cond eid (Some (out_trace qo)) s1)).
      intros t Hp Hpr. destruct t; inversion Hp; subst. inversion Hpr; subst. reflexivity. }
    subst po. exists qo, s1, px, (out_lw o'), s0, r0, s0', own, v.
    assert (Ex : px_lv px = tsub L (out_lw o') (out_lw o')).
    { rewrite Elv. f_equal. rewrite Ew. change (kwarg "sample_dims" VNone (sub_kwargs (in_ix o) kws)) with (kwarg (L := L) "sample_dims" VNone kws).
      change (kwarg "batch_dim" VNone (sub_kwargs (in_ix o) kws)) with (kwarg (L := L) "batch_dim" VNone kws).
      rewrite (covers_sum L HL _ _ (out_trace qo) (out_trace r0)); [|assumption..|intros a; rewrite Et; apply reused_latent].
      apply (logp_sum_ext L). intros a x Hin. apply In_dget in Hin; [|exact Hw0]. destruct Hcov as [Hcov _]. destruct (Hcov a x Hin) as (x' & E & _).
      unfold dmem. rewrite E. rewrite orb_true_r. reflexivity. }
    cbn [target_part p] in Htp. destruct Htp as (keys & Em & Emt). rewrite Em' in Em. injection Em as <- <-.
    split; [exact Hqr|]. split; [exact Epx|]. split; [exact Ex|]. split; [rewrite Elw, Ex; reflexivity|]. split; [exact Hf|]. split; [exact Hcov|].
    split; [exact Em0|]. split; [exact Eout|].
    assert (Ek : dkeys mt = filter (fun a => mem a own) (dkeys (out_trace r0))).
    { rewrite Emt, Et. rewrite <- (reused_keys L (out_trace qo) (out_trace r0)). generalize (reused_from (out_trace qo) (out_trace r0)) as t.
      unfold dkeys. induction t as [|[a x] t IH]; [reflexivity|]. cbn [filter map fst]. destruct (mem a own); cbn [map fst]; rewrite IH; reflexivity. }
    rewrite <- Ek. destruct nr; [rewrite Etr; reflexivity|].
    clear - Etr. unfold detached_rerun in Etr. unfold dkeys. induction Etr as [|a b t t' Hab _ IH]; [reflexivity|]. cbn [map]. rewrite IH. f_equal. exact (proj1 Hab).
Qed.
Print Assumptions C101_extended.

(** a case: x with y observed, extended by z, proposed by the chain of the same two programs; the weight is
    that of the observation *)
Definition self_extend_ex : inf ZL :=
  IPropose (L := ZL) 13 extend_ex (ICompose (L := ZL) 12 P_z P_xy opts0) opts0 None false.
Example C101_extended_call : exists o s', returns (run self_extend_ex VNone []) (st0 ZL) o s' /\
  (option_map px_lv (out_px o), out_lw o, dkeys (out_trace o)) = (Some (true, 0, 0)%Z, (true, -4, 0)%Z, ["x"; "y"]).
Proof. apply (seen_by (L := ZL) _ _ [zten 9; zten 8] (fun o _ => _)). vm_compute. reflexivity. Qed.
Example C101_extended_covered : forall qo s1,
  returns (run (ICompose (L := ZL) 12 P_z P_xy opts0) VNone (sub_kwargs VNone [])) (st0 ZL) qo s1 ->
  exists s0 r0 s0', wf_st s0 /\ get_cond 11 s0 = None /\ store s0 = store s1 /\
    returns (run extend_ex VNone (sub_kwargs VNone [])) s0 r0 s0' /\ covers (out_trace qo) (out_trace r0).
Proof.
  intros qo s1 H. unfold returns in H. cbn in H. inversion H as [|? ? v ? H1]; subst. cbn in H1. inversion H1 as [|? ? w ? H2]; subst. cbn in H2.
  inversion H2; subst. exists (st0 ZL). eexists _, _. split; [intros i t E; discriminate|]. split; [reflexivity|]. split; [reflexivity|].
  split; [apply (walk_outcome (L := ZL) _ [v; w]); reflexivity|]. cbn. split.
  - intros a r E. cbn in E. cbn. destruct (String.eqb_spec a "x") as [->|Nx]; [injection E as <-; eexists; split; [reflexivity|]; auto|].
    destruct (String.eqb_spec a "y") as [->|Ny]; [injection E as <-; eexists; split; [reflexivity|]; auto|].
    destruct (String.eqb_spec a "z") as [->|Nz]; [injection E as <-; eexists; split; [reflexivity|]; auto|discriminate].
  - intros a r E E'. cbn in E, E'. exfalso. destruct (String.eqb a "x"); [discriminate|]. destruct (String.eqb a "y"); [discriminate|]. destruct (String.eqb a "z"); discriminate.
Qed.
