(** C70: the recorded log-density of a random variable is that of its distribution at its value. *)
From Coq Require Import Lra.
From Verif Require Import Spec SpecResample RunInv Thm_Traces Thm_Gradient InstancesPop Prop_Resample Prop_Particles Prop_Observed.
Open Scope nat_scope.

Definition agrees {L : lib} (r : rv L) : Prop :=
  match rv_den r with
  | Proper d => rv_logp r = logp L d (rv_value r)
  | Improper f => rv_logp r = f (rv_value r)
  | OtherRV => True
  end.
Definition trace_agrees {L : lib} (tr : trace L) : Prop := forall a r, In (a, r) tr -> agrees r.
(** whatever a model injects into its trace by hand agrees *)
Fixpoint injects_agreeing {L : lib} (m : model L) : Prop :=
  match m with
  | MRet _ | MRaise _ => True
  | MVar _ _ _ _ k | MDraw _ _ _ k => forall v, injects_agreeing (k v)
  | MInject _ r k => agrees r /\ injects_agreeing k
  | MCond k => forall t, injects_agreeing (k t)
  | MTrace k => forall t, injects_agreeing (k t)
  | MGetStore _ k => forall v, injects_agreeing (k v)
  | MSetStore _ _ k => injects_agreeing k
  end.
Definition keeps_agreement {L : lib} (rs : resampler L) : Prop :=
  forall tr lw kws items lw2, trace_agrees tr -> outcome (rs_call rs tr lw kws) (Ok (items, lw2)) -> trace_agrees items.
(** all traces of a result, those of its intermediate results included *)
Inductive all_agree {L : lib} : out L -> Prop :=
| all_agree_intro o :
    trace_agrees (out_trace o) ->
    (forall px, out_px o = Some px -> trace_agrees (px_proposal_trace px) /\ trace_agrees (px_target_trace px) /\
       forall t, px_forward_trace px = Some t -> trace_agrees t) ->
    (forall k o', In (k, o') (out_subs o) -> all_agree o') -> all_agree o.

Section Agree.
  Context {L : lib}.
  Lemma exec_agrees cond (m : model L) : injects_agreeing m -> forall tr s o tr' s', trace_agrees tr ->
    outcome (exec cond m tr s) (Ok (o, tr'), s') -> trace_agrees tr'.
  Proof.
    induction m as [o|e|name d value rep k IH|name r0 k IH|k IH|k IH|d rep shape k IH|key k IH|key v k IH];
      intros Hm tr s o' tr' s' Ht H; cbn [exec injects_agreeing] in H, Hm.
    - apply outcome_leaf in H. injection H as <- <- <-. exact Ht.
    - apply outcome_leaf in H. discriminate.
    - assert (Hfin : forall v p s0, outcome (mbind (lift (add_node name (mkRV (Proper d) v (logp L d v) p rep true) tr))
                (fun tr' => exec cond (k v) tr') s0) (Ok (o', tr'), s') -> trace_agrees tr').
      { intros v p s0 H0. apply outcome_mbind in H0. destruct H0 as [(tr1 & s1 & H1 & H2)|(e & E & _)]; [|discriminate].
        apply ret_lift in H1. destruct H1 as [H1 <-]. unfold add_node in H1. destruct (dmem name tr); [discriminate|]. injection H1 as <-.
        eapply (IH v (Hm v)); [|exact H2]. intros a r Hin. apply In_dset in Hin. destruct Hin as [[_ ->]|Hin]; [reflexivity|eapply Ht, Hin]. }
      destruct value as [[v pv]|]; [eapply Hfin, H|]. destruct (match cond with Some ct => dget name ct | None => None end) as [r|]; [eapply Hfin, H|].
      apply outcome_draw in H. destruct H as [v H]. eapply Hfin, H.
    - destruct Hm as [Hr Hm]. eapply (IH Hm); [|exact H]. intros a r Hin. apply In_dset in Hin. destruct Hin as [[-> ->]|Hin]; [exact Hr|eapply Ht, Hin].
    - eapply (IH _ (Hm _)); eassumption.
    - eapply (IH _ (Hm _)); eassumption.
    - apply outcome_draw in H. destruct H as [v H]. eapply (IH v (Hm v)); eassumption.
    - eapply (IH _ (Hm _)); eassumption.
    - eapply (IH Hm); eassumption.
  Qed.
  Lemma copy_agrees excl mode (trs : list (trace L)) tr : (forall t, In t trs -> trace_agrees t) -> copytraces excl mode trs = Ok tr -> trace_agrees tr.
  Proof. intros H E a r Hin. destruct (copy_In _ _ _ _ _ _ E Hin) as (t & Ht & Hin'). eapply H; eassumption. Qed.
  Lemma rerun_agrees (tr tr' : trace L) : rerun_with_detached_values tr = Ok tr' -> trace_agrees tr'.
  Proof.
    unfold rerun_with_detached_values. assert (H : forall tr acc tr' : trace L, trace_agrees acc -> rerun_items tr acc = Ok tr' -> trace_agrees tr').
    { clear. induction tr as [|[k r] tr IH]; intros acc tr' Ha E; cbn [rerun_items] in E; [injection E as <-; exact Ha|].
      destruct (rerun_rv r) as [r'|] eqn:Er; cbn [rbind] in E; [|discriminate]. eapply IH; [|exact E].
      intros a x Hin. apply In_dset in Hin. destruct Hin as [[_ ->]|Hin]; [|eapply Ha, Hin].
      unfold rerun_rv in Er. unfold agrees. destruct (rv_den r); try discriminate; injection Er as <-; reflexivity. }
    apply H. intros a r [].
  Qed.
  Lemma agree_subs o dbg subs : all_agree (L := L) o -> (forall k o', In (k, o') subs -> all_agree o') -> all_agree (add_subs dbg subs o).
  Proof.
    intros H Hs. destruct dbg; [|exact H]. inversion H as [? H1 H2 H3]; subst. constructor; [exact H1|exact H2|].
    intros k o' Hin. cbn in Hin. apply in_app_or in Hin. destruct Hin as [Hin|Hin]; [eapply H3, Hin|eapply Hs, Hin].
  Qed.
End Agree.

(** C70. In every result of an inference program whose resamplers keep agreement (so, in
    particular, without Resample), called in any state and with any conditioning. *)
Theorem C70_agreement_partial (L : lib) (t : inf L) c kws s o s' :
  (forall oid sg m, In (IProg oid sg m) (parts t) -> forall c kws, injects_agreeing (m c kws)) ->
  (forall oid q ix l0 rs dbg, In (IResample oid q ix l0 rs dbg) (parts t) -> keeps_agreement rs) ->
  wf_dict kws -> wf_st s -> returns (run t c kws) s o s' -> all_agree o.
Proof.
  revert c kws s o s'.
  induction t as [oid sg m|oid q IHq ix l0 rs dbg|oid p IHp f IHf o|oid q2 IH2 q1 IH1 o|oid p IHp q IHq o tf nr];
    intros c kws s r s' HP HR Hkw Hst H.
  - apply forward_returns in H. destruct H as (k' & ou & tr & lw & s1 & H & _ & _ & _ & _ & _ & _ & ->).
    constructor; [|discriminate|intros k o' []]. cbn. eapply exec_agrees; [| |exact H]; [eapply HP; left; reflexivity|intros a r0 []].
  - apply run_resample_returns in H; [|exact Hkw].
    destruct H as (qo & s1 & items & lw2 & c1 & c2 & st2 & _ & Hq & Hr & _ & _ & _ & _ & ->).
    assert (Aq : all_agree qo).
    { eapply IHq; [| | | |exact Hq]; [intros; eapply HP; right; eassumption|intros; eapply HR; right; eassumption|apply wf_sub_kwargs, Hkw|exact Hst]. }
    apply agree_subs; [|intros k o' [[= _ <-]|[]]; exact Aq].
    constructor; [|discriminate|intros k o' []]. cbn. intros a x Hin. apply In_dmerge in Hin. destruct Hin as [[]|Hin].
    inversion Aq as [? A1 _ _]; subst. exact (HR _ _ _ _ _ _ (or_introl eq_refl) _ _ _ _ _ A1 Hr a x Hin).
  - apply run_extend_returns in H; [|exact Hkw|exact Hst].
    destruct H as (po & s1 & fo & s2 & lu & tr & l & _ & _ & Hp & Hf & _ & _ & _ & _ & _ & Ht & _ & ->). set (kws' := sub_kwargs (in_ix o) kws) in *.
    assert (Hw : wf_dict kws') by (apply wf_sub_kwargs, Hkw).
    assert (Hs0 : wf_st (set_cond (oid_of f) (get_cond oid s) (set_cond (oid_of p) (get_cond oid s) s))).
    { apply wf_set_cond; [apply wf_set_cond; [exact Hst|]|]; intros t Et; eapply Hst; exact Et. }
    assert (Ap : all_agree po).
    { eapply IHp; [| |exact Hw|exact Hs0|exact Hp]; intros; [eapply HP|eapply HR]; right; apply in_or_app; left; eassumption. }
    assert (Af : all_agree fo).
    { eapply IHf; [| |exact Hw|exact (proj2 (run_returns_wf _ _ _ _ _ _ Hw Hs0 Hp))|exact Hf]; intros; [eapply HP|eapply HR]; right; apply in_or_app; right; eassumption. }
    apply agree_subs; [|intros k o' [[= _ <-]|[[= _ <-]|[]]]; assumption].
    constructor; [|discriminate|intros k o' []]. cbn. eapply copy_agrees; [|exact Ht]. inversion Ap; inversion Af; subst. intros t [<-|[<-|[]]]; assumption.
  - apply run_compose_returns in H; [|exact Hkw].
    destruct H as (o1 & s1 & o2 & tr & l & _ & _ & H1 & H2 & _ & Ht & _ & ->). set (kws' := sub_kwargs (in_ix o) kws) in *.
    assert (Hw : wf_dict kws') by (apply wf_sub_kwargs, Hkw).
    assert (A1 : all_agree o1).
    { eapply IH1; [| |exact Hw|exact Hst|exact H1]; intros; [eapply HP|eapply HR]; right; apply in_or_app; right; eassumption. }
    assert (A2 : all_agree o2).
    { eapply IH2; [| |exact Hw|exact (proj2 (run_returns_wf _ _ _ _ _ _ Hw Hst H1))|exact H2]; intros; [eapply HP|eapply HR]; right; apply in_or_app; left; eassumption. }
    apply agree_subs; [|intros k o' [[= _ <-]|[[= _ <-]|[]]]; assumption].
    constructor; [|discriminate|intros k o' []]. cbn. eapply copy_agrees; [|exact Ht]. inversion A1; inversion A2; subst. intros t [<-|[<-|[]]]; assumption.
  - set (kws' := sub_kwargs (in_ix o) kws) in *. assert (Hw : wf_dict kws') by (apply wf_sub_kwargs, Hkw).
    apply run_propose_returns in H; [|exact Hkw|].
    2:{ intros qo s1 Hq. exact (proj1 (run_returns_wf _ _ _ _ _ _ Hw Hst Hq)). }
    destruct H as (qo & s1 & po & s2 & qt & lu & mo & mt & tr & pt & tt' & fw & l & _ & _ & _ & Hq & Hp & _ & _ & _ & Hm & Htr & _ & Hpt & Htt & Hfw & _ & ->).
    fold kws' in Hq, Hp. destruct (run_returns_wf _ _ _ _ _ _ Hw Hst Hq) as [Hwq Hs1].
    assert (Aq : all_agree qo).
    { eapply IHq; [| |exact Hw|exact Hst|exact Hq]; intros; [eapply HP|eapply HR]; right; apply in_or_app; right; eassumption. }
    assert (Ap : all_agree po).
    { eapply IHp; [| |exact Hw| |exact Hp]; [intros; eapply HP; right; apply in_or_app; left; eassumption|intros; eapply HR; right; apply in_or_app; left; eassumption|].
      apply wf_set_cond; [exact Hs1|]. intros t [= <-]. exact Hwq. }
    apply agree_subs; [|intros k o' [[= _ <-]|[[= _ <-]|[]]]; assumption].
    inversion Aq as [? Q1 Q2 Q3]; inversion Ap as [? P1 P2 P3]; subst. constructor; [| |intros k o' []]; cbn.
    + destruct nr; [injection Htr as <-|eapply rerun_agrees; exact Htr]. unfold marginalize in Hm. destruct (is_extend p).
      * destruct (out_marginal po) as [[mk mo']|]; [|discriminate].
        destruct (copytraces _ NoOverlaps [out_trace po]) as [t0|e] eqn:Ec; cbn in Hm; [|discriminate]. injection Hm as _ <-.
        eapply copy_agrees; [|exact Ec]. intros t [<-|[]]. exact P1.
      * injection Hm as _ <-. exact P1.
    + intros px [= <-]. cbn. split; [eapply copy_agrees; [|exact Hpt]; intros t [<-|[]]; exact Q1|].
      split; [eapply copy_agrees; [|exact Htt]; intros t [<-|[]]; exact P1|]. intros t ->. unfold forward_trace in Hfw.
      destruct (debug_attr q) as [[|]|]; cbn [rbind] in Hfw; try discriminate. destruct (out_type qo); try discriminate.
      destruct (get_sub "q2_out" qo) as [o2|] eqn:E2; [|discriminate]. injection Hfw as <-. unfold get_sub in E2. apply dget_In in E2.
      specialize (Q3 _ _ E2). inversion Q3; subst. assumption.
Qed.
Print Assumptions C70_agreement_partial.
(** Rerunning a trace whose variables agree does not change any log-density, numerically: [same]
    relates tensors with equal numbers, and densities do not look at what a tensor is attached to. *)
Theorem C70_rerun (L : lib) (same : T L -> T L -> Prop) (tr : trace L) :
  (forall d v, same (logp L d (detach L v)) (logp L d v)) ->
  (forall a r f, In (a, r) tr -> rv_den r = Improper f -> same (f (detach L (rv_value r))) (f (rv_value r))) ->
  (forall a r, In (a, r) tr -> rv_den r <> OtherRV) ->
  wf_dict tr -> trace_agrees tr ->
  exists tr', rerun_with_detached_values tr = Ok tr' /\
    Forall2 (fun kr kr' => fst kr' = fst kr /\ same (rv_logp (snd kr')) (rv_logp (snd kr))) tr tr'.
Proof.
  intros Hd Hf Ho Hw Ha. destruct (proj1 (rerun_spec L tr Hw) Ho) as (tr' & E & H). exists tr'. split; [exact E|].
  assert (Hall : forall kr, In kr tr -> agrees (snd kr) /\ forall f, rv_den (snd kr) = Improper f -> same (f (detach L (rv_value (snd kr)))) (f (rv_value (snd kr)))).
  { intros [a r] Hin. split; [eapply Ha, Hin|]. intros f. apply (Hf a r f Hin). }
  clear - H Hall Hd. induction H as [|[k r] [k' r'] tr tr' (H1 & H2 & H3 & H4 & H5) _ IH]; constructor.
  - split; [exact H1|]. cbn [fst snd] in *. destruct (Hall _ (or_introl eq_refl)) as [A1 A2]. cbn [snd] in A1, A2. unfold agrees in A1. destruct (rv_den r) as [d|f|]; [| |contradiction].
    + rewrite A1, (proj1 H5). apply Hd.
    + rewrite A1, H5. apply A2. reflexivity.
  - apply IH. intros kr Hin. apply Hall. right. exact Hin.
Qed.
Print Assumptions C70_rerun.

(** Resampling: agreement is kept by the variables whose distribution treats all particles alike. *)
Definition same_array (x y : arr) : Prop := shape x = shape y /\ forall i, In i (indices (shape x)) -> at_ x i = at_ y i.
Definition alike {L : lib} (W : array_view L) (d : D L) : Prop := forall x x' anc,
  gathered (to_arr W x) (to_arr W x') anc -> gathered (to_arr W (logp L d x)) (to_arr W (logp L d x')) anc.
Theorem C70_alike (L : lib) (W : array_view L) anc (tr tr' : trace L) a r d :
  resampled_trace W anc tr tr' -> trace_agrees tr -> dget a tr = Some r -> rv_den r = Proper d -> moves r = true ->
  (forall i, In i (indices (shape (to_arr W (rv_logp r)))) -> i <> []) -> alike W d ->
  exists r', dget a tr' = Some r' /\ rv_den r' = Proper d /\ same_array (to_arr W (rv_logp r')) (to_arr W (logp L d (rv_value r'))).
Proof.
  intros Ht Ha Hr Ed Hm Hi Hd. destruct (resampled_dget W _ _ _ _ _ Ht Hr) as (r' & Hr' & Hx). unfold resampled_rv in Hx. rewrite Hm in Hx.
  destruct Hx as (Hv & Hl & En & _). exists r'. split; [exact Hr'|]. split; [congruence|].
  assert (A : rv_logp r = logp L d (rv_value r)) by (specialize (Ha a r (dget_In _ _ _ Hr)); unfold agrees in Ha; rewrite Ed in Ha; exact Ha).
  specialize (Hd _ _ _ Hv). rewrite <- A in Hd. destruct Hd as [S1 D1], Hl as [S2 D2]. split; [congruence|]. intros i Hin. rewrite S2 in Hin.
  destruct i as [|k rest]; [exfalso; exact (Hi _ Hin eq_refl)|]. rewrite (D1 _ _ Hin), (D2 _ _ Hin). reflexivity.
Qed.
Print Assumptions C70_alike.

(** The distribution of y depends on the particle: after resampling, the first particle of y is a
    copy of the second one, with its log-density ln 3/4, but still carries the distribution of the
    first one, for which it is ln 1/4.  Rerunning the trace changes the log-density. *)
Definition depV : pyval ten -> dict (pyval ten) -> model PopL := fun _ _ =>
  MVar (L := PopL) "x" (fun _ _ => true) None true (fun x =>
  MVar (L := PopL) "y" (coinV x) None true (fun y =>
  MVar (L := PopL) "w" (coinV x) (Some (col2 1 1, None)) true (fun _ => MRet (L := PopL) (VDict [("x", VTensor x); ("y", VTensor y)])))).
Definition depR : inf PopL := IResample (L := PopL) 2 (IProg (L := PopL) 3 sig_model depV) VNone None (systematic PopV false) false.
Definition first_lp (r : rv PopL) : ereal := at_ (arr_of (rv_logp r)) [0; 0].
Lemma dep_run : match first_draw (first_draw (first_draw (run depR VNone dimsV (st0 PopL)) (col2 0 1)) (col2 1 1)) (offset_at (3/4)) with
  | Leaf (Ok o, _) => match dget "y" (out_trace o), rerun_with_detached_values (out_trace o) with
      | Some r, Ok tr' => match dget "y" tr' with Some r' => first_lp r = Fin (ln (3/4)) /\ first_lp r' = Fin (ln (1/4)) /\
          match rv_den r with Proper d => at_ (arr_of (logp PopL d (rv_value r))) [0; 0] = Fin (ln (1/4)) | _ => False end | None => False end
      | _, _ => False end
  | _ => False end.
Proof.
  assert (H : ancestors_of (logs_of 0%R 1%R) (3/4)%R = [1; 1]).
  { apply (anc2 (1/4)%R (3/4)%R); coins_of; try (rewrite ?Rplus_0_l, ?Rplus_0_r; reflexivity); try lra;
    match goal with |- context [Rlt_dec ?a ?b] => destruct (Rlt_dec a b); (reflexivity || lra) end. }
  ev. (match goal with |- context [ancestors_of ?c ?v] => let E := fresh in assert (E := H : ancestors_of c v = _); rewrite E; clear H E end).
  ev. repeat split; coins_of; reflexivity.
Qed.
Lemma draw_outcome {A} (t : stree PopL A) v a : outcome (first_draw t v) a -> outcome t a.
Proof. destruct t; [exact (fun H => H)|]. intros H. apply outcome_draw. eauto. Qed.
Theorem C70_resample_refuted : exists o s' r tr' r',
  returns (run depR VNone dimsV) (st0 PopL) o s' /\ wf_dict dimsV /\ wf_st (st0 PopL) /\
  (forall oid sg m, In (IProg oid sg m) (parts depR) -> forall c kws, injects_agreeing (m c kws)) /\
  dget "y" (out_trace o) = Some r /\ ~ agrees r /\
  rerun_with_detached_values (out_trace o) = Ok tr' /\ dget "y" tr' = Some r' /\
  first_lp r = Fin (ln (3/4)) /\ first_lp r' = Fin (ln (1/4)).
Proof.
  pose proof dep_run as G.
  destruct (first_draw (first_draw (first_draw (run depR VNone dimsV (st0 PopL)) (col2 0 1)) (col2 1 1)) (offset_at (3/4))) as [[[o|e] s']|] eqn:E; try contradiction.
  assert (H : returns (run depR VNone dimsV) (st0 PopL) o s').
  { unfold returns. eapply draw_outcome, draw_outcome, draw_outcome. rewrite E. constructor. }
  destruct (dget "y" (out_trace o)) as [r|] eqn:Er; [|contradiction]. destruct (rerun_with_detached_values (out_trace o)) as [tr'|] eqn:Et; [|contradiction].
  destruct (dget "y" tr') as [r'|] eqn:Er'; [|contradiction]. destruct G as (G1 & G2 & G3).
  exists o, s', r, tr', r'. split; [exact H|]. split; [repeat constructor; cbn; intuition congruence|]. split; [intros i t Hi; discriminate|].
  split; [|split; [exact Er|split; [|auto]]].
  - intros oid sg m [Hm|[Hm|[]]]; [discriminate|]. injection Hm as _ _ <-. cbn. auto.
  - unfold agrees. destruct (rv_den r); try contradiction. intros A. unfold first_lp in G1. rewrite A, G3 in G1. injection G1 as G1.
    apply (f_equal exp) in G1. rewrite !exp_ln in G1; lra.
Qed.
Print Assumptions C70_resample_refuted.

(** the hypotheses of C70_agreement_partial and C70_rerun are met: the same program without
    resampling, in a Propose *)
Definition depP : inf PopL := IPropose (L := PopL) 0 (IProg (L := PopL) 1 sig_model depV)
  (ICompose (L := PopL) 2 (IProg (L := PopL) 4 sig_model moveV) (IProg (L := PopL) 3 sig_model depV) optsV) optsV None false.
Example C70_case : exists o s', returns (run depP VNone dimsV) (st0 PopL) o s' /\ all_agree o /\ out_trace o <> [] /\
  forall a r, In (a, r) (out_trace o) -> rv_den r <> OtherRV (L := PopL).
Proof.
  assert (G : match first_draw (first_draw (first_draw (run depP VNone dimsV (st0 PopL)) (col2 0 1)) (col2 1 1)) (col2 1 1) with
    | Leaf (Ok o, _) => out_trace o <> [] /\ forall a r, In (a, r) (out_trace o) -> rv_den r <> OtherRV (L := PopL) | _ => False end).
  { ev. split; [discriminate|]. intros a r H. repeat destruct H as [H|H]; try contradiction; injection H as _ <-; discriminate. }
  destruct (first_draw (first_draw (first_draw (run depP VNone dimsV (st0 PopL)) (col2 0 1)) (col2 1 1)) (col2 1 1)) as [[[o|e] s']|] eqn:E; try contradiction.
  assert (H : returns (run depP VNone dimsV) (st0 PopL) o s').
  { unfold returns. eapply draw_outcome, draw_outcome, draw_outcome. rewrite E. constructor. }
  exists o, s'. split; [exact H|]. split; [|exact G].
  eapply C70_agreement_partial; [| | | |exact H].
  - intros oid sg m Hm. cbn in Hm. repeat destruct Hm as [Hm|Hm]; try contradiction; try discriminate; injection Hm as _ _ <-; cbn; auto.
  - intros oid q ix l0 rs dbg Hm. cbn in Hm. repeat destruct Hm as [Hm|Hm]; try contradiction; discriminate.
  - repeat constructor; cbn; intuition congruence.
  - intros i t Hi; discriminate.
Qed.
(** a distribution that treats all particles alike, and two resampled variables *)
Example C70_alike_case : alike PopV (fun _ _ => true).
Proof.
  intros x x' anc [H1 H2]. split; [exact H1|]. intros k rest Hin. cbn in Hin, H1, H2 |- *. unfold at_logp. rewrite (H2 k rest Hin). reflexivity.
Qed.
