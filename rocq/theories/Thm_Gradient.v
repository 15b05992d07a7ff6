(** The parameters that the gradients of a result can reach (property C63). *)
From Verif Require Export SpecGradient Thm_Total SpecAnnealing.
From Verif Require Import Thm_Gibbs Thm_Sweeps Thm_Particles Thm_Annealing.
Close Scope R_scope.
Open Scope nat_scope.

Section Gradient.
  Context {L : lib} (G : tape L) (GL : tape_laws G) (par : nat -> params G) (flat : nat -> bool).
  Notation T := (T L). Notation pyval := (pyval T). Notation trace := (trace L). Notation rv := (rv L).
  Notation out := (out L). Notation inf := (inf L). Notation model := (model L).
  Notation dep := (dep G). Notation ddep := (ddep G). Notation within := (within G par). Notation exposed := (exposed flat).
  Notation params := (params G).
  Notation surely := (surely (grad_sorts G)).
  Definition incl_p (X Y : params) : Prop := forall i, X i -> Y i.
  Infix "<=p" := incl_p (at level 70).

  (** the parameters of the distributions *)
  Definition dens (A : params) (l : list nat) : params := if forallb flat l then within (no_param G) l else within A l.

  Lemma p_refl X : X <=p X. Proof. intros i H. exact H. Qed.
  Lemma p_trans X Y Z : X <=p Y -> Y <=p Z -> X <=p Z. Proof. intros H1 H2 i H. apply H2, H1, H. Qed.
  Lemma within_base A l : A <=p within A l. Proof. intros i H. left. exact H. Qed.
  Lemma within_mono A B l l' : A <=p B -> incl l l' -> within A l <=p within B l'.
  Proof. intros H1 H2 i [H|(j & H & H')]; [left; apply H1, H|right; exists j; split; [apply H2, H|exact H']]. Qed.
  Lemma within_within A l l' m : incl l m -> incl l' m -> within (within A l) l' <=p within A m.
  Proof. intros H1 H2 i [[H|(j & H & H')]|(j & H & H')]; [left; exact H|right; exists j; auto|right; exists j; auto]. Qed.
  Lemma no_param_incl A : no_param G <=p A. Proof. intros i []. Qed.
  Lemma dens_within A l : dens A l <=p within A l.
  Proof. unfold dens. destruct (forallb flat l); [|apply p_refl]. apply within_mono; [apply no_param_incl|apply incl_refl]. Qed.
  Lemma dens_sub A B l m : incl l m -> within A l <=p within B m -> dens A l <=p dens B m.
  Proof.
    intros Hi Hw. unfold dens at 2. destruct (forallb flat m) eqn:E.
    - assert (E' : forallb flat l = true) by (apply forallb_forall; intros x Hx; apply (proj1 (forallb_forall _ _) E), Hi, Hx).
      unfold dens. rewrite E'. apply within_mono; [apply p_refl|exact Hi].
    - eapply p_trans; [apply dens_within|exact Hw].
  Qed.

  Lemma den_mono F F' r : F <=p F' -> den_dep G F r -> den_dep G F' r.
  Proof.
    intros Hi. unfold den_dep. destruct (rv_den r) as [d|f|]; [apply (tp_dmono _ GL), Hi| |trivial].
    intros H X v HX. apply H. intros i Hx. apply HX, Hi, Hx.
  Qed.
  Lemma node_mono X X' F F' r : X <=p X' -> F <=p F' -> node_dep G X F r -> node_dep G X' F' r.
  Proof. intros HX HF (H1 & H2 & H3). split; [|split]; [eapply (tp_mono _ GL); eassumption|eapply (tp_mono _ GL); eassumption|eapply den_mono; eassumption]. Qed.
  Lemma trace_mono X X' F F' tr : X <=p X' -> F <=p F' -> trace_dep G X F tr -> trace_dep G X' F' tr.
  Proof. intros HX HF H a r Hin. eapply node_mono; [exact HX|exact HF|]. eapply H, Hin. Qed.
  Lemma tensors_mono X X' v : X <=p X' -> all_tensors (dep X) v -> all_tensors (dep X') v.
  Proof. intros HX. apply all_tensors_mono. intros t. apply (tp_mono _ GL), HX. Qed.
  Lemma kwargs_mono X X' kws : X <=p X' -> kwargs_dep G X kws -> kwargs_dep G X' kws.
  Proof. intros HX H k v Hin. eapply tensors_mono; [exact HX|]. eapply H, Hin. Qed.
  Lemma no_tensor_dep X v : no_tensor v -> all_tensors (dep X) v.
  Proof. apply all_tensors_mono. intros t []. Qed.

  (** *** keyword arguments *)
  Lemma kwarg_dep A k dv kws : no_tensor dv -> kwargs_dep G A kws -> all_tensors (dep A) (kwarg (L := L) k dv kws).
  Proof.
    intros Hd H. unfold kwarg. destruct (dget k kws) as [v|] eqn:E; [|apply no_tensor_dep, Hd]. eapply H. eapply dget_In, E.
  Qed.
  Lemma sub_dep A ix kws : no_tensor ix -> kwargs_dep G A kws -> kwargs_dep G A (sub_kwargs ix kws).
  Proof.
    intros Hi H k v Hin. unfold sub_kwargs in Hin. apply in_app_iff in Hin. destruct Hin as [Hin|Hin].
    - cbn [In] in Hin. repeat destruct Hin as [Hin|Hin]; try contradiction; injection Hin as <- <-; try (apply kwarg_dep; [exact I|exact H]).
      destruct (is_none ix); [apply kwarg_dep; [exact I|exact H]|apply no_tensor_dep, Hi].
    - apply filter_In in Hin. eapply H, Hin.
  Qed.
  Lemma In_dmerge {V} a (x : V) d e : In (a, x) (dmerge d e) -> In (a, x) d \/ In (a, x) e.
  Proof.
    unfold dmerge. revert d. induction e as [|[k v] e IH]; intros d H; [left; exact H|]. cbn [fold_left fst snd] in H. apply IH in H.
    destruct H as [H|H]; [|right; right; exact H]. apply In_dset in H. destruct H as [[-> ->]|H]; [right; left; reflexivity|left; exact H].
  Qed.
  Lemma prog_dep A sg kws : kwargs_dep G A kws -> kwargs_dep G A (prog_kwargs sg kws).
  Proof.
    intros H k v Hin. unfold prog_kwargs in Hin. apply filter_In in Hin. destruct Hin as [Hin _]. apply In_dmerge in Hin. destruct Hin as [Hin|Hin].
    - cbn [In] in Hin. repeat destruct Hin as [Hin|Hin]; try contradiction; injection Hin as <- <-; apply kwarg_dep; first [exact I|exact H].
    - apply filter_In in Hin. eapply H, Hin.
  Qed.

  (** *** traces *)
  Lemma trace_dset X F a r tr : trace_dep G X F tr -> node_dep G X F r -> trace_dep G X F (dset a r tr).
  Proof. intros H Hr b r' Hin. apply In_dset in Hin. destruct Hin as [[-> ->]|Hin]; [exact Hr|eapply H, Hin]. Qed.
  Lemma trace_as X F items : trace_dep G X F items -> trace_dep G X F (as_trace items).
  Proof. intros H a r Hin. apply In_dmerge in Hin. destruct Hin as [[]|Hin]. eapply H, Hin. Qed.
  Lemma copy_In excl mode trs tr a (r : rv) : copytraces excl mode trs = Ok tr -> In (a, r) tr -> exists t, In t trs /\ In (a, r) t.
  Proof.
    unfold copytraces. assert (Hi : forall t acc tr, copy_items excl mode t acc = Ok tr -> In (a, r) tr -> In (a, r) t \/ In (a, r) acc).
    { induction t as [|[k x] t IH]; intros acc tr0 H Hin; cbn [copy_items] in H; [injection H as <-; auto|].
      destruct (copy_item excl mode k x acc) as [acc'|] eqn:E; cbn [rbind] in H; [|discriminate]. destruct (IH _ _ H Hin) as [H1|H1]; [left; right; exact H1|].
      assert (H2 : In (a, r) acc \/ (a, r) = (k, x)).
      { unfold copy_item in E. destruct (excl k); [injection E as <-; auto|]. destruct (dmem k acc).
        - destruct mode; [|injection E as <-; auto|discriminate]. injection E as <-. apply In_dset in H1. destruct H1 as [[-> ->]|H1]; [auto|].
          apply In_dset in H1. destruct H1 as [[-> ->]|H1]; auto.
        - injection E as <-. apply In_dset in H1. destruct H1 as [[-> ->]|H1]; auto. }
      destruct H2 as [H2|[= -> ->]]; [right; exact H2|left; left; reflexivity]. }
    assert (Ha : forall trs acc tr, copy_all excl mode trs acc = Ok tr -> In (a, r) tr -> (exists t, In t trs /\ In (a, r) t) \/ In (a, r) acc).
    { induction trs0 as [|t trs0 IH]; intros acc tr0 H Hin; cbn [copy_all] in H; [injection H as <-; auto|].
      destruct (copy_items excl mode t acc) as [acc'|] eqn:E; cbn [rbind] in H; [|discriminate]. destruct (IH _ _ H Hin) as [(t' & H1 & H2)|H1].
      - left. exists t'. split; [right; exact H1|exact H2].
      - destruct (Hi _ _ _ E H1) as [H2|H2]; [left; exists t; split; [left; reflexivity|exact H2]|right; exact H2]. }
    intros H Hin. destruct (Ha _ _ _ H Hin) as [H1|[]]. exact H1.
  Qed.
  Lemma copy_dep X F excl mode trs tr : (forall t, In t trs -> trace_dep G X F t) -> copytraces excl mode trs = Ok tr -> trace_dep G X F tr.
  Proof. intros H E a r Hin. destruct (copy_In _ _ _ _ _ _ E Hin) as (t & Ht & Hin'). eapply H; eassumption. Qed.

  Lemma joint_dep X F sd bd rep nodes (tr : trace) x : trace_dep G X F tr -> log_joint sd bd rep nodes tr = Ok x -> dep X x.
  Proof.
    intros Ht. unfold log_joint. assert (H : forall ns acc x, dep X acc -> log_joint_from sd bd rep ns tr acc = Ok x -> dep X x).
    { induction ns as [|n ns IH]; intros acc y Ha E; cbn [log_joint_from] in E; [injection E as <-; exact Ha|].
      destruct (dget n tr) as [r|] eqn:Er; [|eapply IH; eassumption]. destruct (lj_ok L _ _ _); [|discriminate]. eapply IH; [|exact E].
      apply (tp_add _ GL); [exact Ha|]. apply (tp_bsum _ GL). apply (Ht n r). apply dget_In, Er. }
    apply H, (tp_zero _ GL).
  Qed.

  (** rerun_with_detached_values leaves the parameters of the distributions *)
  Lemma rerun_dep X F (tr tr' : trace) : trace_dep G X F tr -> rerun_with_detached_values tr = Ok tr' -> trace_dep G F F tr'.
  Proof.
    intros Ht. unfold rerun_with_detached_values. assert (H : forall tr acc tr', trace_dep G X F tr -> trace_dep G F F acc -> rerun_items tr acc = Ok tr' -> trace_dep G F F tr').
    { clear Ht tr tr'. intros tr. induction tr as [|[k r] tr IH]; intros acc tr' Ht Ha E; cbn [rerun_items] in E; [injection E as <-; exact Ha|].
      destruct (rerun_rv r) as [r'|] eqn:Er; cbn [rbind] in E; [|discriminate]. eapply IH; [|apply trace_dset; [exact Ha|]|exact E].
      - intros a x Hin. apply (Ht a). right. exact Hin.
      - destruct (Ht k r (or_introl eq_refl)) as (_ & _ & Hd). unfold rerun_rv in Er. unfold den_dep in Hd. destruct (rv_den r) as [d|f|] eqn:Ed; [| |discriminate]; injection Er as <-.
        + split; [apply (tp_detach _ GL)|]. split; [apply (tp_logp _ GL); [exact Hd|apply (tp_detach _ GL)]|exact Hd].
        + split; [apply (tp_detach _ GL)|]. split; [apply Hd; [apply p_refl|apply (tp_detach _ GL)]|exact Hd]. }
    apply H; [exact Ht|]. intros a r [].
  Qed.

  Lemma detach_output_dep X (v : pyval) : shallow (L := L) v -> all_tensors (dep X) (detach_output v).
  Proof.
    destruct v as [|b|z|s|t|l|d|n]; cbn [shallow detach_output]; intros H; try (apply no_tensor_dep, H).
    - apply (tp_detach _ GL).
    - apply all_tensors_dict. intros k x Hin. apply in_map_iff in Hin. destruct Hin as ([k' y] & [= <- <-] & Hin).
      destruct (H k' y Hin) as [(t & ->)|Hn]; [apply (tp_detach _ GL)|]. destruct y; cbn [detach_entry fst snd]; apply no_tensor_dep, Hn.
  Qed.
  Lemma detach_output_shallow (v : pyval) : shallow (L := L) v -> shallow (L := L) (detach_output v).
  Proof.
    destruct v as [|b|z|s|t|l|d|n]; cbn [shallow detach_output]; intros H; try exact H.
    intros k x Hin. apply in_map_iff in Hin. destruct Hin as ([k' y] & [= <- <-] & Hin). cbn [fst snd].
    destruct (H k' y Hin) as [(t & ->)|Hn]; [left; eexists; reflexivity|]. right. destruct y; exact Hn.
  Qed.

  (** *** models *)
  Lemma exec_dep X F cond m : F <=p X -> (forall ct, cond = Some ct -> trace_dep G X X ct) -> computes G X F m -> forall tr s, trace_dep G X F tr ->
    surely (exec cond m tr s) (fun x => forall v tr', fst x = Ok (v, tr') -> all_tensors (dep X) v /\ shallow (L := L) v /\ trace_dep G X F tr').
  Proof.
    intros HF Hc. induction 1 as [o Ho Hs|e|a d rep k Hd Hk IH|a d v p rep k Hd Hv Hk IH|a r k Hr Hk IH|k Hk IH|k Hk IH|d rep sh k Hd Hk IH|key x k Hk IH]; intros tr s Ht; cbn [exec].
    - apply surely_leaf. intros v tr' [= <- <-]. auto.
    - apply surely_leaf. intros v tr' [=].
    - assert (Fin : forall v p s, dep X v -> surely (mbind (lift (add_node a (mkRV (Proper d) v (logp L d v) p rep true) tr)) (fun tr' => exec cond (k v) tr') s)
          (fun x => forall v tr', fst x = Ok (v, tr') -> all_tensors (dep X) v /\ shallow (L := L) v /\ trace_dep G X F tr')).
      { intros v p s' Hv. rewrite mbind_lift. unfold add_node. destruct (dmem a tr); [apply surely_leaf; intros ? ? [=]|]. apply IH; [exact Hv|].
        apply trace_dset; [exact Ht|]. split; [exact Hv|]. split; [apply (tp_logp _ GL); [eapply (tp_dmono _ GL); [exact HF|exact Hd]|exact Hv]|exact Hd]. }
      assert (Draws : surely (Draw (DrawDist d rep VNone) (fun v => mbind (lift (add_node a (mkRV (Proper d) v (logp L d v) SAMPLED rep true) tr)) (fun tr' => exec cond (k v) tr') s))
          (fun x => forall v tr', fst x = Ok (v, tr') -> all_tensors (dep X) v /\ shallow (L := L) v /\ trace_dep G X F tr')).
      { apply surely_draw. cbn. intros v Hv. apply Fin. destruct rep; [apply Hv; eapply (tp_dmono _ GL); [exact HF|exact Hd]|apply Hv]. }
      destruct cond as [ct|]; [|exact Draws]. destruct (dget a ct) as [r|] eqn:E; [|exact Draws]. apply Fin. apply (Hc ct eq_refl a r). apply dget_In, E.
    - rewrite mbind_lift. unfold add_node. destruct (dmem a tr); [apply surely_leaf; intros ? ? [=]|]. apply IH.
      apply trace_dset; [exact Ht|]. split; [exact Hv|]. split; [apply (tp_logp _ GL); [eapply (tp_dmono _ GL); [exact HF|exact Hd]|exact Hv]|exact Hd].
    - apply IH. apply trace_dset; assumption.
    - apply IH; assumption.
    - apply IH; assumption.
    - apply surely_draw. cbn. intros v Hv. apply IH; [|exact Ht]. destruct rep; [apply Hv, Hd|apply Hv].
    - apply IH, Ht.
  Qed.

  (** *** states *)
  Definition state_dep (A : params) (s : st L) : Prop := forall i ct, get_cond i s = Some ct -> wf_dict ct /\ trace_dep G A A ct.
  Lemma state_wf A s : state_dep A s -> wf_st s. Proof. intros H i t E. apply (H i t E). Qed.
  Lemma state_mono A B s : A <=p B -> state_dep A s -> state_dep B s.
  Proof. intros Hi H i ct E. destruct (H i ct E) as [Hw Ht]. split; [exact Hw|]. eapply trace_mono; eassumption. Qed.
  Lemma state_run A t c kws s x : state_dep A s -> reaches (grad_sorts G) (run t c kws s) x -> state_dep A (snd x).
  Proof.
    intros H Hx. destruct x as [r s']. apply reaches_outcome in Hx. pose proof (run_cond _ _ _ _ _ _ _ Hx) as Hc.
    cbn [snd]. intros i ct E. destruct (Hc i) as [E'|[E' _]]; rewrite E' in E; [|discriminate]. apply (H i ct E).
  Qed.
  Lemma state_set A i t s : state_dep A s -> (forall ct, t = Some ct -> wf_dict ct /\ trace_dep G A A ct) -> state_dep A (set_cond i t s).
  Proof.
    intros H Ht j ct E. destruct (Nat.eq_dec j i) as [->|Hn].
    - rewrite get_set_same in E. apply Ht, E.
    - rewrite get_set_other in E by exact Hn. eapply H, E.
  Qed.

  (** *** the invariant *)
  Record traced (A : params) (t : inf) (o : out) : Prop := mkTraced {
    tr_trace : trace_dep G (within A (exposed t)) (dens A (exposed t)) (out_trace o);
    tr_lw : dep (within A (exposed t)) (out_lw o);
    tr_output : all_tensors (dep (within A (exposed t))) (out_output o);
    tr_shallow : shallow (L := L) (out_output o);
    tr_kept : forall mo mt, marginalize t o = Ok (mo, mt) ->
      all_tensors (dep (within A (exposed (kept_of t)))) mo /\ shallow (L := L) mo /\
      trace_dep G (within A (exposed (kept_of t))) (dens A (exposed (kept_of t))) mt;
    tr_forward : forall tr, forward_trace t o = Ok (Some tr) -> trace_dep G (within A (exposed t)) (within A (exposed t)) tr;
    tr_px : forall px, out_px o = Some px -> px_dep G (within A (level flat t)) px;
    tr_loss : trained G t -> match out_loss o with Some l => sum_of_levels G par A (levels flat t) l | None => levels flat t = [] end }.

  Lemma kept_same A t o : is_extend t = false -> kept_of t = t -> trace_dep G (within A (exposed t)) (dens A (exposed t)) (out_trace o) ->
    all_tensors (dep (within A (exposed t))) (out_output o) -> shallow (L := L) (out_output o) ->
    forall mo mt, marginalize t o = Ok (mo, mt) ->
      all_tensors (dep (within A (exposed (kept_of t)))) mo /\ shallow (L := L) mo /\
      trace_dep G (within A (exposed (kept_of t))) (dens A (exposed (kept_of t))) mt.
  Proof. intros E E' H1 H2 H3 mo mt H. unfold marginalize in H. rewrite E in H. injection H as <- <-. rewrite E'. auto. Qed.

  Lemma pass_loss A t child (o r : out) lf l0 : trained G t -> (forall r l, lf r l = Ok l) -> no_loss0 G l0 ->
    (trained G t -> match out_loss child with Some l => sum_of_levels G par A (levels flat t) l | None => levels flat t = [] end) ->
    add_loss lf l0 child o = Ok r -> exists l, r = with_loss o l /\ sum_of_levels G par A (levels flat t) l.
  Proof.
    intros Ht Hl Hz H E. specialize (H Ht). unfold add_loss in E. rewrite Hl in E. cbn [rmap] in E. injection E as <-. eexists. split; [reflexivity|].
    destruct (out_loss child) as [l|]; [exact H|]. rewrite H. exists (match l0 with Some l => l | None => tzero L end), []. split; [|split; [constructor|reflexivity]].
    destruct l0 as [l|]; [apply Hz; reflexivity|apply (tp_zero _ GL)].
  Qed.
  Lemma add_loss_form lf l0 child (o r : out) : add_loss (L := L) lf l0 child o = Ok r -> exists l, r = with_loss o l.
  Proof. unfold add_loss. match goal with |- context [lf o ?x] => destruct (lf o x) as [l|e] end; intros E; cbn [rmap] in E; [|discriminate]. injection E as <-. eauto. Qed.

  Lemma traced_prog A oid sg m c kws s : tracked G par flat (IProg oid sg m) -> all_tensors (dep A) c -> kwargs_dep G A kws -> state_dep A s ->
    surely (run (IProg oid sg m) c kws s) (fun x => forall o, fst x = Ok o -> traced A (IProg oid sg m) o).
  Proof.
    intros Ht Hc Hk Hs. cbn [run].
    destruct (clash ["self"] kws || clash (firstn 3 (s_args sg)) (prog_kwargs sg kws)) eqn:Ecl.
    { unfold forward. fold (k_sd kws) (k_bd kws) (k_rep kws). fold (prog_kwargs sg kws). rewrite Ecl. apply surely_leaf. intros o [=]. }
    eapply surely_teq; [apply forward_eq, Ecl|]. apply surely_tbind.
    cbn [tracked] in Ht. specialize (Ht A c (prog_kwargs sg kws) Hc (prog_dep _ _ _ Hk)).
    set (X := within A [oid]) in *. set (F := if flat oid then par oid else X) in *.
    assert (HF : F <=p X) by (unfold F; destruct (flat oid); [intros i Hi; right; exists oid; split; [left; reflexivity|exact Hi]|apply p_refl]).
    assert (HFd : F <=p dens A [oid]).
    { unfold F, dens. cbn [forallb]. destruct (flat oid); cbn [andb]; [|apply p_refl]. intros i Hi. right. exists oid. split; [left; reflexivity|exact Hi]. }
    eapply surely_impl; [eapply (exec_dep X F); [exact HF| |exact Ht|intros a r []]|].
    { intros ct E. destruct (Hs oid ct E) as [_ H]. eapply trace_mono; [apply within_base|apply within_base|exact H]. }
    intros [x s1] _ H. unfold after. cbn [fst snd] in *. destruct x as [[v tr]|e]; [|apply surely_leaf; intros o [=]].
    specialize (H v tr eq_refl). destruct H as (Hv & Hsh & Htr). cbn [prog_tail]. apply surely_leaf. cbn [fst]. intros o E.
    match type of E with rbind (log_joint ?a ?b ?r ?n tr) _ = _ => destruct (log_joint a b r n tr) as [lw|] eqn:Elw end; cbn [rbind] in E; [|discriminate]. injection E as <-.
    assert (Htr' : trace_dep G (within A (exposed (IProg oid sg m))) (dens A (exposed (IProg oid sg m))) tr)
      by (eapply trace_mono; [apply p_refl|exact HFd|exact Htr]).
    constructor; cbn [out_trace out_lw out_output out_px out_loss]; try assumption.
    - eapply joint_dep; eassumption.
    - apply kept_same; cbn; auto.
    - unfold forward_trace. cbn. discriminate.
    - discriminate.
    - reflexivity.
  Qed.

  Lemma traced_compose A oid q2 q1 o kws o1 o2 r : traced A q1 o1 -> traced (within A (exposed q1)) q2 o2 -> compose_tail o kws o1 o2 = Ok r ->
    traced A (ICompose oid q2 q1 o) r.
  Proof.
    intros H1 H2. unfold compose_tail. destruct (copytraces _ _ _) as [tr|] eqn:Et; cbn [rbind]; [|discriminate].
    destruct (sinter _ _); [|discriminate].
    match goal with |- context [add_loss ?a ?b ?c ?d] => destruct (add_loss a b c d) as [r0|] eqn:El end; cbn [rbind]; [|discriminate]. intros [= <-].
    destruct (add_loss_form _ _ _ _ _ El) as [l ->].
    match goal with |- traced _ _ (add_subs ?d ?sb ?x) => pose proof (sd_fields L d sb x) as (F1 & F2 & F3 & F4 & _ & F5 & F6 & F7) end.
    assert (I1 : within A (exposed q1) <=p within A (exposed (ICompose oid q2 q1 o))) by (apply within_mono; [apply p_refl|cbn; apply incl_appr, incl_refl]).
    assert (I2 : within (within A (exposed q1)) (exposed q2) <=p within A (exposed (ICompose oid q2 q1 o))) by (apply within_within; cbn; [apply incl_appr|apply incl_appl]; apply incl_refl).
    assert (D1 : dens A (exposed q1) <=p dens A (exposed (ICompose oid q2 q1 o))) by (apply dens_sub; [cbn; apply incl_appr, incl_refl|exact I1]).
    assert (D2 : dens (within A (exposed q1)) (exposed q2) <=p dens A (exposed (ICompose oid q2 q1 o))) by (apply dens_sub; [cbn; apply incl_appl, incl_refl|exact I2]).
    assert (Htr : trace_dep G (within A (exposed (ICompose oid q2 q1 o))) (dens A (exposed (ICompose oid q2 q1 o))) tr).
    { eapply copy_dep; [|exact Et]. intros t [<-|[<-|[]]]; [eapply trace_mono; [exact I2|exact D2|apply H2]|eapply trace_mono; [exact I1|exact D1|apply H1]]. }
    assert (Hout : all_tensors (dep (within A (exposed (ICompose oid q2 q1 o)))) (out_output o2)) by (eapply tensors_mono; [exact I2|apply H2]).
    constructor; rewrite ?F1, ?F2, ?F3, ?F5, ?F7; cbn [with_loss out_trace out_lw out_output out_px out_loss].
    - exact Htr.
    - apply (tp_add _ GL); [eapply (tp_mono _ GL); [exact I1|apply H1]|eapply (tp_mono _ GL); [exact I2|apply H2]].
    - exact Hout.
    - apply H2.
    - apply kept_same; rewrite ?F1, ?F3; try reflexivity; [exact Htr|exact Hout|apply H2].
    - intros t E. unfold forward_trace in E. cbn [debug_attr rbind] in E. destruct (in_debug o); [|discriminate]. rewrite F4 in E. cbn [with_loss out_type] in E.
      rewrite orb_true_r in E. cbn in E. injection E as <-. eapply trace_mono; [exact I2| |apply H2]. eapply p_trans; [apply dens_within|exact I2].
    - discriminate.
    - intros (T1 & Hz & Hl). destruct (pass_loss A q1 o1 _ _ _ _ T1 Hl Hz (tr_loss _ _ _ H1) El) as (l' & E & Hs). cbn [levels].
      apply (f_equal out_loss) in E. cbn in E. injection E as <-. exact Hs.
  Qed.

  Lemma traced_extend A oid p f o kws cond po fo r : wf_dict (out_trace po) -> wf_dict (out_trace fo) ->
    traced A p po -> traced (within A (exposed p)) f fo -> extend_tail o kws cond po fo = Ok r ->
    traced A (IExtend oid p f o) r.
  Proof.
    intros Wp Wf H1 H2. unfold extend_tail. match goal with |- context [rbind ?chk _ = Ok r] => destruct chk as [[]|] end; cbn [rbind]; [|discriminate].
    destruct (sinter _ _) eqn:Es; [|discriminate].
    match goal with |- context [log_joint ?a ?b ?c ?n ?t] => destruct (log_joint a b c n t) as [lu|] eqn:Elu end; cbn [rbind]; [|discriminate].
    destruct (copytraces _ _ _) as [tr|] eqn:Et; cbn [rbind]; [|discriminate].
    match goal with |- context [add_loss ?a ?b ?c ?d] => destruct (add_loss a b c d) as [r0|] eqn:El end; cbn [rbind]; [|discriminate]. intros [= <-].
    destruct (add_loss_form _ _ _ _ _ El) as [l ->].
    match goal with |- traced _ _ (add_subs ?d ?sb ?x) => pose proof (sd_fields L d sb x) as (F1 & F2 & F3 & F4 & _ & F5 & F6 & F7) end.
    set (t := IExtend oid p f o).
    assert (I1 : within A (exposed p) <=p within A (exposed t)) by (apply within_mono; [apply p_refl|cbn; apply incl_appl, incl_refl]).
    assert (I2 : within (within A (exposed p)) (exposed f) <=p within A (exposed t)) by (apply within_within; cbn; [apply incl_appl|apply incl_appr]; apply incl_refl).
    assert (D1 : dens A (exposed p) <=p dens A (exposed t)) by (apply dens_sub; [cbn; apply incl_appl, incl_refl|exact I1]).
    assert (D2 : dens (within A (exposed p)) (exposed f) <=p dens A (exposed t)) by (apply dens_sub; [cbn; apply incl_appr, incl_refl|exact I2]).
    pose proof (proj1 (sinter_nil _ _) Es) as Hd.
    assert (Hd' : disjoint_keys (out_trace po) (out_trace fo)) by (intros a Ha Hb; exact (Hd a Hb Ha)).
    assert (Htr : trace_dep G (within A (exposed t)) (dens A (exposed t)) tr).
    { eapply copy_dep; [|exact Et]. intros x [<-|[<-|[]]]; [eapply trace_mono; [exact I1|exact D1|apply H1]|eapply trace_mono; [exact I2|exact D2|apply H2]]. }
    rewrite copytraces_two_disjoint in Et by assumption. injection Et as <-.
    constructor; rewrite ?F1, ?F2, ?F3, ?F5, ?F7; cbn [with_loss out_trace out_lw out_output out_px out_loss].
    - exact Htr.
    - apply (tp_add _ GL); [eapply (tp_mono _ GL); [exact I1|apply H1]|]. eapply (tp_mono _ GL); [exact I2|]. eapply joint_dep; [apply (tr_trace _ _ _ H2)|exact Elu].
    - eapply tensors_mono; [exact I2|apply H2].
    - apply H2.
    - intros mo mt E. unfold marginalize in E. cbn [t is_extend] in E. rewrite F6, F1 in E. cbn [with_loss out_marginal out_trace] in E.
      destruct (copytraces (fun k => mem k _) NoOverlaps _) as [tr|] eqn:Ec; cbn [rmap] in E; [|discriminate]. injection E as <- <-. cbn [t kept_of].
      split; [apply H1|]. split; [apply H1|].
      intros a x Hin. destruct (copytraces_addresses _ _ _ _ _ Ec) as [_ Hk]. destruct (copy_In _ _ _ _ _ _ Ec Hin) as (t' & [<-|[]] & Hin').
      apply in_app_or in Hin'. destruct Hin' as [Hin'|Hin']; [apply (tr_trace _ _ _ H1 a x Hin')|]. exfalso.
      assert (Ha : In a (dkeys tr)) by (apply in_map_iff; exists (a, x); auto). apply Hk in Ha. destruct Ha as [Ha _].
      apply mem_not_In in Ha. apply Ha, In_sdiff.
      assert (Hf : In a (dkeys (out_trace fo))) by (apply in_map_iff; exists (a, x); auto).
      split; [rewrite dkeys_app; apply in_or_app; right; exact Hf|exact (Hd a Hf)].
    - intros x E. unfold forward_trace in E. cbn [t debug_attr rbind] in E. rewrite F4 in E. cbn [with_loss out_type] in E. destruct (in_debug o); discriminate.
    - discriminate.
    - intros (T1 & Hz & Hl). destruct (pass_loss A p po _ _ _ _ T1 Hl Hz (tr_loss _ _ _ H1) El) as (l' & E & Hs). cbn [t levels].
      apply (f_equal out_loss) in E. cbn in E. injection E as <-. exact Hs.
  Qed.

  Lemma resample_output_dep X F c1 (tr : trace) c2 : trace_dep G X F tr -> all_tensors (dep X) (VDict c1) -> shallow (L := L) (VDict c1) ->
    resample_output c1 tr = Ok c2 -> all_tensors (dep X) (VDict c2) /\ shallow (L := L) (VDict c2).
  Proof.
    intros Ht. revert c2. induction c1 as [|[k v] c1 IH]; intros c2 Ha Hs E; cbn [resample_output] in E; [injection E as <-; auto|].
    match type of E with rbind ?x _ = _ => destruct x as [v'|] eqn:Ev end; cbn [rbind] in E; [|discriminate].
    destruct (resample_output c1 tr) as [c2'|] eqn:E2; cbn [rbind] in E; [|discriminate]. injection E as <-.
    pose proof (proj1 (all_tensors_dict _ _) Ha) as Ha'.
    destruct (IH c2') as [A2 S2]; [|intros a x Hin; apply (Hs a); right; exact Hin|reflexivity|].
    { apply all_tensors_dict. intros a x Hin. apply (Ha' a). right. exact Hin. }
    assert (Hv : all_tensors (dep X) v' /\ ((exists t, v' = VTensor t) \/ no_tensor v')).
    { destruct (dget k tr) as [r|] eqn:Er.
      - destruct v; try discriminate. injection Ev as <-. split; [apply (Ht k r), dget_In, Er|left; eauto].
      - injection Ev as <-. split; [apply (Ha' k), or_introl, eq_refl|apply (Hs k), or_introl, eq_refl]. }
    split; [apply all_tensors_dict; intros a x [[= <- <-]|Hin]; [apply Hv|apply (proj1 (all_tensors_dict _ _) A2 a x Hin)]|].
    intros a x [[= <- <-]|Hin]; [apply Hv|apply (S2 a x Hin)].
  Qed.

  Lemma traced_resample A oid q ix l0 rs dbg kws qo s1 items lw2 r s2 : traced A q qo ->
    trace_dep G (within A (exposed q)) (dens A (exposed q)) items -> dep (within A (exposed q)) lw2 ->
    resample_tail ix l0 dbg kws qo s1 (Ok (items, lw2)) = (Ok r, s2) -> traced A (IResample oid q ix l0 rs dbg) r.
  Proof.
    intros Hq Hi Hlw. unfold resample_tail. destruct (out_output qo) as [| | | | | |c1|] eqn:Eo; try discriminate.
    destruct (resample_output c1 (as_trace items)) as [c2|] eqn:Ec; [|discriminate]. destruct (hook _ _ _ _) as [d|]; [|discriminate].
    match goal with |- context [add_loss ?a ?b ?c ?d] => destruct (add_loss a b c d) as [r0|] eqn:El end; cbn [rbind]; [|discriminate]. intros [= <- <-].
    destruct (add_loss_form _ _ _ _ _ El) as [l ->].
    match goal with |- traced _ _ (add_subs ?d ?sb ?x) => pose proof (sd_fields L d sb x) as (F1 & F2 & F3 & F4 & _ & F5 & F6 & F7) end.
    assert (Htr := trace_as _ _ _ Hi).
    destruct (resample_output_dep _ _ _ _ _ Htr ltac:(rewrite <- Eo; apply Hq) ltac:(rewrite <- Eo; apply Hq) Ec) as [Ha Hs].
    constructor; rewrite ?F1, ?F2, ?F3, ?F5, ?F7; cbn [with_loss out_trace out_lw out_output out_px out_loss]; try assumption.
    - apply kept_same; rewrite ?F1, ?F3; try reflexivity; assumption.
    - intros t E. unfold forward_trace in E. cbn [debug_attr rbind] in E. rewrite F4 in E. cbn [with_loss out_type] in E. destruct dbg; discriminate.
    - discriminate.
    - intros (T1 & Hz). destruct (pass_loss A q qo _ _ _ _ T1 (fun _ _ => eq_refl) Hz (tr_loss _ _ _ Hq) El) as (l' & E & Hs'). cbn [levels].
      apply (f_equal out_loss) in E. cbn in E. injection E as <-. exact Hs'.
  Qed.

  Lemma exposed_propose oid (p q : inf) o tf nr : exposed (IPropose oid p q o tf nr) =
    (if negb nr && forallb flat (exposed (kept_of p)) then exposed (kept_of p) else exposed p ++ exposed q).
  Proof. destruct p; reflexivity. Qed.
  Lemma kept_incl (p : inf) : incl (exposed (kept_of p)) (exposed p).
  Proof. destruct p; cbn [kept_of]; try apply incl_refl. cbn. apply incl_appl, incl_refl. Qed.

  Lemma traced_propose A oid p q o tf nr kws qo po r : traced A q qo -> traced (within A (exposed q)) p po -> transf_tracks G tf ->
    propose_tail o p q tf nr kws qo po = Ok r -> traced A (IPropose oid p q o tf nr) r.
  Proof.
    intros Hq Hp Htf. unfold propose_tail. set (t := IPropose oid p q o tf nr). set (Xq := within A (exposed q)) in *.
    set (X := within A (exposed p ++ exposed q)).
    assert (Iq : Xq <=p X) by (apply within_mono; [apply p_refl|apply incl_appr, incl_refl]).
    assert (Ip : within Xq (exposed p) <=p X) by (apply within_within; [apply incl_appr|apply incl_appl]; apply incl_refl).
    assert (Ik : within Xq (exposed (kept_of p)) <=p X) by (eapply p_trans; [apply within_mono; [apply p_refl|apply kept_incl]|exact Ip]).
    assert (Tq : trace_dep G X X (out_trace qo)) by (eapply trace_mono; [exact Iq| |apply Hq]; eapply p_trans; [apply dens_within|exact Iq]).
    assert (Tp : trace_dep G X X (out_trace po)) by (eapply trace_mono; [exact Ip| |apply Hp]; eapply p_trans; [apply dens_within|exact Ip]).
    destruct (apply_transf tf _ _) as [qt|] eqn:Eq; cbn [rbind]; [|discriminate].
    assert (Tt : trace_dep G X X qt).
    { unfold apply_transf in Eq. destruct tf as [f|]; [|injection Eq as <-; exact Tq].
      match type of Eq with rmap _ (tf_call f ?a ?k) = _ => destruct (tf_call f a k) as [qt0|] eqn:Ef end; cbn [rmap] in Eq; [|discriminate]. injection Eq as <-.
      apply trace_as. eapply Htf; [reflexivity|exact Tq|exact Ef]. }
    match goal with |- context [log_joint ?a ?b ?c ?n ?t] => destruct (log_joint a b c n t) as [lu|] eqn:Elu end; cbn [rbind]; [|discriminate].
    assert (Hlu : dep X lu) by (eapply joint_dep; eassumption).
    destruct (marginalize p po) as [[mo mt]|] eqn:Em; cbn [rbind fst snd]; [|discriminate].
    destruct (tr_kept _ _ _ Hp _ _ Em) as (Mo & Ms & Mt).
    destruct (if nr then _ else _) as [tr|] eqn:Etr; cbn [rbind]; [|discriminate].
    assert (Htr : trace_dep G (within A (exposed t)) (dens A (exposed t)) tr).
    { unfold t. rewrite exposed_propose. destruct nr; cbn [negb andb].
      - injection Etr as <-. eapply trace_mono; [exact Ik| |exact Mt]. apply dens_sub; [|exact Ik]. eapply incl_tran; [apply kept_incl|apply incl_appl, incl_refl].
      - apply (rerun_dep _ _ _ _ Mt) in Etr. destruct (forallb flat (exposed (kept_of p))) eqn:Ef.
        + unfold dens in *. rewrite Ef in *. eapply trace_mono; [|apply p_refl|exact Etr]. apply within_mono; [apply no_param_incl|apply incl_refl].
        + assert (D : dens Xq (exposed (kept_of p)) <=p dens A (exposed p ++ exposed q)) by (apply dens_sub; [eapply incl_tran; [apply kept_incl|apply incl_appl, incl_refl]|exact Ik]).
          eapply trace_mono; [|exact D|exact Etr]. eapply p_trans; [exact D|apply dens_within]. }
    destruct (is_tensor L _) eqn:Ei; cbn [rbind]; [|discriminate].
    destruct (copytraces _ _ [out_trace qo]) as [pt|] eqn:Ept; cbn [rbind]; [|discriminate].
    destruct (copytraces _ _ [out_trace po]) as [tt'|] eqn:Ett; cbn [rbind]; [|discriminate].
    destruct (forward_trace q qo) as [fw|] eqn:Efw; cbn [rbind]; [|discriminate].
    match goal with |- context [add_loss ?a ?b ?c ?d] => destruct (add_loss a b c d) as [r0|] eqn:El end; cbn [rbind]; [|discriminate]. intros [= <-].
    match goal with H : add_loss _ _ _ ?x = Ok r0 |- _ => set (r1 := x) in * end.
    destruct (add_loss_form _ _ _ _ _ El) as [l ->].
    assert (Hpx : px_dep G X (mkPX (sdiff (dkeys (out_trace qo)) (sdiff (latent_addrs (out_trace qo)) (latent_addrs (out_trace po)))) (tsub L (out_lw po) lu)
                     (if is_tensor L (out_lw qo) then detach L (out_lw qo) else to_tensor L (out_lw qo)) pt tt' fw)).
    { unfold px_dep. cbn [px_lv px_lw px_proposal_trace px_target_trace px_forward_trace]. split; [|split; [|split; [|split]]].
      - apply (tp_sub _ GL); [eapply (tp_mono _ GL); [exact Ip|apply Hp]|exact Hlu].
      - destruct (is_tensor L (out_lw qo)); [apply (tp_detach _ GL)|]. apply (tp_to_tensor _ GL). eapply (tp_mono _ GL); [exact Iq|apply Hq].
      - eapply copy_dep; [|exact Ept]. intros x [<-|[]]. exact Tq.
      - eapply copy_dep; [|exact Ett]. intros x [<-|[]]. exact Tp.
      - intros x ->. eapply trace_mono; [exact Iq|exact Iq|]. eapply (tr_forward _ _ _ Hq), Efw. }
    assert (Hout : forall Y, all_tensors (dep Y) (detach_output mo)) by (intros Y; apply detach_output_dep, Ms).
    match goal with |- traced _ _ (add_subs ?d ?sb ?x) => pose proof (sd_fields L d sb x) as (F1 & F2 & F3 & F4 & _ & F5 & F6 & F7) end.
    constructor; rewrite ?F1, ?F2, ?F3, ?F5, ?F7; cbn [with_loss out_trace out_lw out_output out_px out_loss r1].
    - exact Htr.
    - apply (tp_detach _ GL).
    - apply Hout.
    - apply detach_output_shallow, Ms.
    - apply kept_same; rewrite ?F1, ?F3; try reflexivity; cbn [with_loss out_trace out_output r1]; [exact Htr|apply Hout|apply detach_output_shallow, Ms].
    - intros x E. unfold forward_trace in E. cbn [t debug_attr rbind] in E. rewrite F4 in E. cbn [with_loss out_type r1] in E. destruct (in_debug o); discriminate.
    - intros px [= <-]. exact Hpx.
    - intros (T1 & Hz & g & Hg & Hl). cbn [t levels]. fold X.
      unfold add_loss in El. rewrite Hl in El. destruct (g r1) as [t1|] eqn:Eg; cbn [rmap] in El; [|discriminate].
      assert (Hr1 : dep X t1).
      { apply (Hg X r1 t1); [|intros px [= <-]; exact Hpx|exact Eg]. split; [|split; [apply (tp_detach _ GL)|apply Hout]]. cbn [r1 out_trace].
        assert (I : within A (exposed t) <=p X).
        { unfold t. rewrite exposed_propose. apply within_mono; [apply p_refl|]. destruct (_ && _); [eapply incl_tran; [apply kept_incl|apply incl_appl, incl_refl]|apply incl_refl]. }
        eapply trace_mono; [exact I| |exact Htr]. eapply p_trans; [apply dens_within|exact I]. }
      apply (f_equal (fun r => match r with Ok x => out_loss x | _ => None end)) in El. cbn in El. injection El as <-.
      pose proof (tr_loss _ _ _ Hq T1) as Hlq.
      assert (Hs : sum_of_levels G par A (levels flat q) (match out_loss qo with Some l => l | None => match in_loss0 o with Some l => l | None => tzero L end end)).
      { destruct (out_loss qo) as [lq|]; [exact Hlq|]. rewrite Hlq. eexists. exists []. split; [|split; [constructor|reflexivity]].
        destruct (in_loss0 o) as [x|]; [apply Hz; reflexivity|apply (tp_zero _ GL)]. }
      destruct Hs as (base & ts & Hb & Hts & Es). exists base, (t1 :: ts). split; [exact Hb|]. split; [constructor; [exact Hr1|exact Hts]|]. cbn [fold_right]. rewrite <- Es. reflexivity.
  Qed.

  Theorem traced_run t : tracked G par flat t -> forall A c kws s, plain_call kws -> all_tensors (dep A) c -> kwargs_dep G A kws -> state_dep A s ->
    surely (run t c kws s) (fun x => forall o, fst x = Ok o -> traced A t o).
  Proof.
    induction t as [oid sg m|oid q IHq ix l0 rs dbg|oid p IHp f IHf o|oid q2 IH2 q1 IH1 o|oid p IHp q IHq o tf nr];
      intros Ht A c kws s Hpl Hc Hk Hs.
    - apply traced_prog; assumption.
    - destruct Ht as (Hq & Hrs & Hix). assert (Hcl : clash ["self"; "c"; "fn"] kws = false) by (apply plain_clash; [exact Hpl|cbn; tauto]).
      eapply surely_teq; [apply run_resample_eq; [apply Hpl|exact Hcl]|]. apply surely_tbind.
      eapply surely_impl; [apply (IHq Hq A); [apply plain_sub, Hpl|exact Hc|apply sub_dep; assumption|exact Hs]|].
      intros [x s1] Hx H. unfold after. cbn [fst snd] in *. destruct x as [qo|e]; [|apply surely_leaf; intros o [=]]. specialize (H qo eq_refl).
      apply surely_tbind. intros r Hr. apply surely_leaf. intros o E. destruct r as [[items lw2]|e]; [|discriminate].
      destruct (resample_tail ix l0 dbg kws qo s1 (Ok (items, lw2))) as [r0 s2] eqn:Er. cbn [fst] in E. subst r0.
      destruct (Hrs _ _ _ _ _ _ _ (tr_trace _ _ _ H) (tr_lw _ _ _ H) Hr) as [Hi Hl]. eapply traced_resample; eassumption.
    - destruct Ht as (Hp & Hf & Hix). assert (Hcl : clash ["self"; "c"; "fn"] kws = false) by (apply plain_clash; [exact Hpl|cbn; tauto]).
      pose proof (plain_sub (in_ix o) kws Hpl) as Hpl'. pose proof (sub_dep A _ kws Hix Hk) as Hk'.
      eapply surely_teq; [apply run_extend_eq; [apply Hpl|apply (state_wf A), Hs|exact Hcl]|]. cbn zeta.
      assert (Hgc : forall ct, get_cond oid s = Some ct -> wf_dict ct /\ trace_dep G A A ct) by (intros ct E; apply (Hs oid ct E)).
      pose proof (state_set _ (oid_of f) _ _ (state_set _ (oid_of p) _ _ Hs Hgc) Hgc) as Hs0.
      apply surely_tbind. eapply surely_impl; [apply (IHp Hp A); [exact Hpl'|exact Hc|exact Hk'|exact Hs0]|].
      intros [x s1] Hx H. cbn [fst snd] in *. destruct x as [po|e]; [|apply surely_leaf; intros r [=]]. specialize (H po eq_refl).
      apply surely_tbind. pose proof (state_run _ _ _ _ _ _ Hs0 Hx) as Hs1. cbn [snd] in Hs1.
      destruct (run_returns_wf _ _ _ _ _ _ (proj1 Hpl') (state_wf _ _ Hs0) (reaches_outcome _ _ _ Hx)) as [Wp Ws1].
      eapply surely_impl; [apply (IHf Hf (within A (exposed p))); [exact Hpl'|apply H|eapply kwargs_mono; [apply within_base|exact Hk']|eapply state_mono; [apply within_base|exact Hs1]]|].
      intros [x s2] Hx2 H2. cbn [fst snd] in *. destruct x as [fo|e]; [|apply surely_leaf; intros r [=]]. specialize (H2 fo eq_refl).
      apply surely_leaf. cbn [fst]. intros r E.
      destruct (run_returns_wf _ _ _ _ _ _ (proj1 Hpl') Ws1 (reaches_outcome _ _ _ Hx2)) as [Wf _].
      eapply traced_extend; [exact Wp|exact Wf|exact H|exact H2|exact E].
    - destruct Ht as (H2 & H1 & Hix). assert (Hcl : clash ["self"; "c"; "fn"] kws = false) by (apply plain_clash; [exact Hpl|cbn; tauto]).
      pose proof (plain_sub (in_ix o) kws Hpl) as Hpl'. pose proof (sub_dep A _ kws Hix Hk) as Hk'.
      eapply surely_teq; [apply run_compose_eq; [apply Hpl|exact Hcl]|]. apply surely_tbind.
      eapply surely_impl; [apply (IH1 H1 A); [exact Hpl'|exact Hc|exact Hk'|exact Hs]|].
      intros [x s1] Hx H. unfold after. cbn [fst snd] in *. destruct x as [o1|e]; [|apply surely_leaf; intros r [=]]. specialize (H o1 eq_refl).
      apply surely_tbind. pose proof (state_run _ _ _ _ _ _ Hs Hx) as Hs1. cbn [snd] in Hs1.
      eapply surely_impl; [apply (IH2 H2 (within A (exposed q1))); [exact Hpl'|apply H|eapply kwargs_mono; [apply within_base|exact Hk']|eapply state_mono; [apply within_base|exact Hs1]]|].
      intros [x s2] _ H'. unfold after. cbn [fst snd] in *. destruct x as [o2|e]; [|apply surely_leaf; intros r [=]]. specialize (H' o2 eq_refl).
      apply surely_leaf. cbn [fst]. intros r E. eapply traced_compose; eassumption.
    - destruct Ht as (Hp & Hq & Htf & Hix). assert (Hcl : clash ["self"; "c"; "fn"] kws = false) by (apply plain_clash; [exact Hpl|cbn; tauto]).
      pose proof (plain_sub (in_ix o) kws Hpl) as Hpl'. pose proof (sub_dep A _ kws Hix Hk) as Hk'.
      destruct (is_compose p) eqn:Ecp.
      { cbn [run]. rewrite mbind_massert, Ecp. cbn [negb]. apply surely_leaf. intros r [=]. }
      eapply surely_teq; [apply run_propose_eq; [apply Hpl|apply (state_wf A), Hs|exact Hcl|exact Ecp]|]. apply surely_tbind.
      eapply surely_impl; [apply (IHq Hq A); [exact Hpl'|exact Hc|exact Hk'|exact Hs]|].
      intros [x s1] Hx H. unfold after. cbn [fst snd] in *. destruct x as [qo|e]; [|apply surely_leaf; intros r [=]]. specialize (H qo eq_refl).
      pose proof (state_run _ _ _ _ _ _ Hs Hx) as Hs1. cbn [snd] in Hs1.
      destruct (run_returns_wf _ _ _ _ _ _ (proj1 Hpl') (state_wf _ _ Hs) (reaches_outcome _ _ _ Hx)) as [Wq _].
      rewrite with_eq by (intros t [= <-]; exact Wq). eapply surely_teq; [apply teq_assoc|]. apply surely_tbind.
      eapply surely_impl; [apply (IHp Hp (within A (exposed q))); [exact Hpl'|eapply tensors_mono; [apply within_base|exact Hc]|eapply kwargs_mono; [apply within_base|exact Hk']|]|].
      { apply state_set; [eapply state_mono; [apply within_base|exact Hs1]|]. intros ct [= <-]. split; [exact Wq|].
        eapply trace_mono; [apply p_refl|apply dens_within|apply H]. }
      intros [x s2] _ H'. cbn [tbind fst snd] in *. destruct x as [po|e]; [|apply surely_leaf; intros r [=]]. specialize (H' po eq_refl).
      apply surely_leaf. cbn [fst]. intros r E. eapply traced_propose; eassumption.
  Qed.

  Lemma fresh_state A c kws s : fresh_call G A c kws s -> state_dep A s.
  Proof. intros (_ & Hcl & _) i ct E. rewrite (Hcl i) in E. discriminate. Qed.
End Gradient.

(** *** The annealing sampler *)
Section Annealing.
  Context {L : lib} (G : tape L) (GL : tape_laws G) (par : nat -> params G) (flat : nat -> bool).
  Notation T := (T L). Notation pyval := (pyval T). Notation trace := (trace L). Notation inf := (inf L).

  Lemma dict_shallow (d : dict T) : shallow (L := L) (VDict (map (fun kv => (fst kv, VTensor (snd kv))) d)).
  Proof. intros k x Hin. apply in_map_iff in Hin. destruct Hin as ([a t] & [= <- <-] & _). left. eauto. Qed.

  Lemma tracked_density oid name f : flat oid = true ->
    (forall (X : params G) v, (forall i, par oid i -> X i) -> dep G X v -> dep G X (f v)) -> tracked G par flat (density_prog (L := L) oid name f).
  Proof.
    intros Hf H A c kws _ _. rewrite Hf. unfold density_model. apply computes_cond. intros cond Hc.
    destruct cond as [ct|]; [|constructor]. destruct (dget name ct) as [r|] eqn:E; [|constructor].
    assert (Hv : dep G (within G par A [oid]) (rv_value r)) by (apply (Hc ct eq_refl name r), dget_In, E).
    constructor.
    - split; [exact Hv|]. split; [|exact H]. apply H; [|exact Hv]. intros i Hi. right. exists oid. split; [left; reflexivity|exact Hi].
    - constructor; [cbn; auto|]. exact (dict_shallow [(name, rv_value r)]).
  Qed.
  Lemma tracked_distribution oid name d rep : flat oid = true -> ddep G (par oid) d -> tracked G par flat (distribution_prog (L := L) oid name d rep).
  Proof.
    intros Hf Hd A c kws _ _. rewrite Hf. unfold distribution_model. apply computes_cond. intros cond Hc.
    assert (Hd' : ddep G (within G par A [oid]) d).
    { eapply (tp_dmono _ GL); [|exact Hd]. intros i Hi. right. exists oid. split; [left; reflexivity|exact Hi]. }
    assert (K : forall v p, dep G (within G par A [oid]) v -> computes G (within G par A [oid]) (par oid)
        (MInject name (mkRV (Proper d) v (logp L d v) p rep true) (MRet (VDict [(name, VTensor v)])))).
    { intros v p Hv. constructor; [split; [exact Hv|split; [apply (tp_logp _ GL); assumption|exact Hd]]|].
      constructor; [cbn; auto|]. exact (dict_shallow [(name, v)]). }
    unfold maybe_sample. destruct cond as [ct|].
    - destruct (dget name ct) as [r|] eqn:E.
      + apply K. apply (Hc ct eq_refl name r), dget_In, E.
      + constructor; [exact Hd'|]. intros v Hv. apply K, Hv.
    - constructor; [exact Hd'|]. intros v Hv. apply K, Hv.
  Qed.
  Lemma tracked_kernel oid from to net rep : flat oid = false ->
    (forall (X : params G) v, (forall i, par oid i -> X i) -> dep G X v -> ddep G X (net v)) -> tracked G par flat (kernel_prog (L := L) oid from to net rep).
  Proof.
    intros Hf H A c kws Hc _. rewrite Hf. unfold kernel_model. destruct c as [| | | | | |d|]; try constructor.
    destruct (dget from d) as [x|] eqn:E; [|constructor]. destruct x as [| | | |t| | |]; try constructor.
    assert (Ht : dep G A t) by (exact (proj1 (all_tensors_dict _ _) Hc from (VTensor t) (dget_In _ _ _ E))).
    - apply H; [intros i Hi; right; exists oid; split; [left; reflexivity|exact Hi]|]. eapply (tp_mono _ GL); [|exact Ht]. intros i Hi. left. exact Hi.
    - intros v Hv. constructor; [cbn; auto|]. exact (dict_shallow [(to, v)]).
  Qed.
  Lemma tracked_stl detach_dist : (forall X d, ddep G X d -> ddep G X (detach_dist d)) -> transf_tracks G (Some (stl_transf (L := L) detach_dist)).
  Proof.
    intros Hd f X tr kws qt [= <-] Ht. assert (H : forall z, stl_trace detach_dist tr z = Ok qt -> trace_dep G X X qt).
    { intros z. unfold stl_trace. destruct (copytraces _ _ _) as [t|] eqn:Et; cbn [rbind]; [|discriminate].
      destruct (dget (gname_z (z + 1)) tr) as [r|] eqn:Er; [|discriminate]. destruct (eval_detached detach_dist r) as [r'|] eqn:Ee; cbn [rbind]; [|discriminate]. intros [= <-].
      apply trace_dset; [eapply copy_dep; [|exact Et]; intros x [<-|[]]; exact Ht|].
      destruct (Ht _ _ (dget_In _ _ _ Er)) as (Hv & _ & Hden). unfold eval_detached in Ee. unfold den_dep in Hden. destruct (rv_den r) as [d|g|]; [|discriminate|discriminate].
      destruct (tensor_equal L _ _); [|discriminate]. injection Ee as <-.
      split; [exact Hv|]. split; [apply (tp_logp _ GL); [apply Hd, Hden|exact Hv]|apply Hd, Hden]. }
    unfold stl_transf. cbn [tf_call]. destruct (kwarg "ix" VNone kws); try discriminate; apply H.
  Qed.

  (** one step: what it exposes and its level *)
  Context (detach_dist : D L -> D L) (Hdd : forall X d, ddep G X d -> ddep G X (detach_dist d))
          (loss_fn : out L -> res T) (Hloss : tracks_term G loss_fn) (avo resample : bool) (rs : resampler L) (Hrs : resampler_tracks G rs) (base n : nat).
  Notation step := (vsmc_step detach_dist loss_fn avo resample rs base n).

  Lemma step_spec k fwd rev p q : tracked G par flat fwd -> tracked G par flat rev -> tracked G par flat p -> tracked G par flat q -> trained G q ->
    forallb flat (exposed flat p) = true ->
    tracked G par flat (step k fwd rev p q) /\ trained G (step k fwd rev p q) /\ exposed flat (step k fwd rev p q) = exposed flat p /\
    levels flat (step k fwd rev p q) = ((exposed flat p ++ exposed flat rev) ++ (exposed flat fwd ++ exposed flat q)) :: levels flat q.
  Proof.
    intros H1 H2 H3 H4 H5 Hfl. unfold vsmc_step. cbn zeta.
    set (id := base + 4 * k).
    match goal with |- context [IPropose ?a ?b ?c ?d ?e ?f] => set (q' := IPropose a b c d e f) end.
    assert (Q : tracked G par flat q' /\ trained G q' /\ exposed flat q' = exposed flat p /\
      levels flat q' = ((exposed flat p ++ exposed flat rev) ++ (exposed flat fwd ++ exposed flat q)) :: levels flat q).
    { split; [|split; [|split]].
      - cbn [q' tracked in_ix]. split; [|split; [|split]]; [|exact (conj H1 (conj H4 I))| |exact I].
        + exact (conj H3 (conj H2 I)).
        + destruct avo; [intros f X tr kws qt [=]|apply tracked_stl, Hdd].
      - cbn [q' trained in_loss in_loss0]. split; [|split; [intros l [=]|exists loss_fn; split; [exact Hloss|reflexivity]]].
        split; [exact H5|]. split; [intros l [=]|reflexivity].
      - unfold q'. rewrite exposed_propose. cbn [kept_of negb andb]. rewrite Hfl. reflexivity.
      - reflexivity. }
    destruct (resample && _); [|exact Q]. destruct Q as (Q1 & Q2 & Q3 & Q4). split; [|split; [|split]].
    - split; [exact Q1|]. split; [exact Hrs|exact I].
    - split; [exact Q2|]. intros l [=].
    - exact Q3.
    - exact Q4.
  Qed.

  Context (pb : problem L) (PT : problem_tracked G par pb).
  Notation stepi i := (kernel_prog (pb_oid_f pb i) (gname i) (gname (S i)) (pb_fwd pb i) (pb_fwd_rep pb i),
                      (kernel_prog (pb_oid_r pb i) (gname (S i)) (gname i) (pb_rev pb i) (pb_rev_rep pb i),
                       target_prog (pb_oid_t pb (S i)) (gname (S i)) (pb_target pb (S i)))).
  Lemma loop_spec m : forall k q,
    (forall j, j <= k + m -> flat (pb_oid_t pb j) = true) -> (forall j, flat (pb_oid_f pb j) = false) -> (forall j, flat (pb_oid_r pb j) = false) ->
    tracked G par flat q -> trained G q -> exposed flat q = [pb_oid_t pb k] -> levels flat q = map (step_programs pb) (rev (seq 0 k)) ->
    let q' := vsmc_loop detach_dist loss_fn avo resample rs base n k (map (fun i => stepi i) (seq k m)) q in
    tracked G par flat q' /\ trained G q' /\ levels flat q' = map (step_programs pb) (rev (seq 0 (k + m))).
  Proof.
    induction m as [|m IH]; intros k q Ft Ff Fr H1 H2 H3 H4; cbn [seq map vsmc_loop].
    - rewrite Nat.add_0_r. auto.
    - rewrite <- Nat.add_succ_comm in *.
      set (p := target_prog (pb_oid_t pb (S k)) (gname (S k)) (pb_target pb (S k))).
      assert (Ep : exposed flat p = [pb_oid_t pb (S k)]) by (unfold p, target_prog; destruct (pb_target pb (S k)); reflexivity).
      assert (Fp : flat (pb_oid_t pb (S k)) = true) by (apply Ft; lia).
      destruct (step_spec k (kernel_prog (pb_oid_f pb k) (gname k) (gname (S k)) (pb_fwd pb k) (pb_fwd_rep pb k))
                  (kernel_prog (pb_oid_r pb k) (gname (S k)) (gname k) (pb_rev pb k) (pb_rev_rep pb k)) p q) as (S1 & S2 & S3 & S4); try assumption.
      + apply tracked_kernel; [apply Ff|]. intros X v. apply (pt_forward _ _ _ PT).
      + apply tracked_kernel; [apply Fr|]. intros X v. apply (pt_reverse _ _ _ PT).
      + unfold p, target_prog. pose proof (pt_target _ _ _ PT (S k)) as Hp. destruct (pb_target pb (S k)); [apply tracked_distribution|apply tracked_density]; assumption.
      + rewrite Ep. cbn [forallb]. rewrite Fp. reflexivity.
      + apply (IH (S k)); try assumption; [congruence|]. rewrite S4, H4, H3, Ep. rewrite seq_S, rev_app_distr. reflexivity.
  Qed.
End Annealing.

Lemma vsmc_levels {L : lib} (G : tape L) (GL : tape_laws G) par detach_dist (Hdd : forall X d, ddep G X d -> ddep G X (detach_dist d))
  loss_fn (Hloss : tracks_term G loss_fn) avo resample (rs : resampler L) (Hrs : resampler_tracks G rs) base (pb : problem L) (PT : problem_tracked G par pb) K q :
  vsmc detach_dist base (pb_targets pb K) (pb_forwards pb K) (pb_reverses pb K) loss_fn avo resample rs = Ok q ->
  exists flat, tracked G par flat q /\ trained G q /\ levels flat q = map (step_programs pb) (rev (seq 0 K)).
Proof.
  intros H. unfold vsmc, pb_targets in H. injection H as <-. generalize (length (pb_forwards pb K)). intros n. unfold pb_forwards, pb_reverses. rewrite combine_seq.
  exists (fun i => existsb (fun k => Nat.eqb (pb_oid_t pb k) i) (seq 0 (S K))).
  apply (loop_spec G GL par _ detach_dist Hdd loss_fn Hloss avo resample rs Hrs base _ pb PT K 0).
  - intros j Hj. apply existsb_exists. exists j. split; [apply in_seq; lia|apply Nat.eqb_refl].
  - intros j. apply not_true_is_false. intros E. apply existsb_exists in E. destruct E as (k & _ & E). apply Nat.eqb_eq in E. exact (proj1 (pt_apart _ _ _ PT k j) E).
  - intros j. apply not_true_is_false. intros E. apply existsb_exists in E. destruct E as (k & _ & E). apply Nat.eqb_eq in E. exact (proj2 (pt_apart _ _ _ PT k j) E).
  - apply tracked_distribution; [exact GL| |apply PT]. apply existsb_exists. exists 0. split; [apply in_seq; lia|apply Nat.eqb_refl].
  - exact I.
  - reflexivity.
  - reflexivity.
Qed.
