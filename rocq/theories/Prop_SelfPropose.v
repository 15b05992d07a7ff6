(** Property C101: proposing to a target what the target produces itself changes no weight. *)
From Verif Require Import Thm_Program Thm_Combinators Thm_Session Prop_Algebra Prop_Combinators Prop_Replay SpecReplay.

Section Self.
  Context (L : lib) (HL : lib_laws L).

  Lemma tsum_perm (l l' : list (T L)) : Permutation l l' -> tsum l = tsum l'.
  Proof.
    unfold tsum. induction 1 as [|x l l' _ IH|x y l|l1 l2 l3 _ IH1 _ IH2]; cbn.
    - reflexivity.
    - rewrite IH. reflexivity.
    - rewrite !(tadd_assoc L HL), (tadd_comm L HL y x). reflexivity.
    - congruence.
  Qed.

  Lemma covers_sum sd bd (qt tr pt : trace L) : wf_dict qt -> wf_dict tr -> covers qt tr ->
    (forall a, latent_in pt a = latent_in tr a) ->
    logp_sum sd bd (fun a _ => charged qt pt a) qt = logp_sum sd bd (fun _ _ => true) tr.
  Proof.
    intros Hq Ht [C1 C2] Hl. unfold logp_sum. apply tsum_perm.
    rewrite <- (map_map (fun kr : string * rv L => (fst kr, rv_logp (snd kr))) (fun x : string * T L => bsum L sd bd (snd x)) (filter _ qt)).
    rewrite <- (map_map (fun kr : string * rv L => (fst kr, rv_logp (snd kr))) (fun x : string * T L => bsum L sd bd (snd x)) (filter _ tr)).
    apply Permutation_map.
    assert (N : forall (P : string -> rv L -> bool) t, wf_dict t -> NoDup (map (fun kr : string * rv L => (fst kr, rv_logp (snd kr))) (filter (fun kr => P (fst kr) (snd kr)) t))).
    { intros P t. unfold wf_dict. induction t as [|[a r] t IH]; intros H; [constructor|]. cbn [dkeys map] in H. inversion H as [|? ? Hn H' E]; subst.
      cbn [filter fst snd]. destruct (P a r); [|exact (IH H')]. cbn [map fst snd]. constructor; [|exact (IH H')].
      rewrite in_map_iff. intros ([b r'] & E & Hin). cbn in E. injection E as -> _. apply filter_In in Hin. apply Hn. exact (in_map fst _ _ (proj1 Hin)). }
    apply NoDup_Permutation; [apply (N (fun a _ => charged qt pt a) qt Hq)|apply (N (fun _ _ => true) tr Ht)|]. intros [a x]. rewrite !in_map_iff. split.
    - intros ([b r'] & E & Hin). cbn in E. injection E as -> <-. apply filter_In in Hin. destruct Hin as [Hin Hc]. cbn [fst snd] in Hc.
      apply In_dget in Hin; [|exact Hq]. unfold charged in Hc. rewrite Hin, Hl in Hc. unfold latent_in in Hc.
      destruct (dget a tr) as [r|] eqn:Er.
      + destruct (C1 a r Er) as (r'' & E & _ & E2 & _). rewrite Hin in E. injection E as <-. exists (a, r). cbn [fst snd]. rewrite E2.
        split; [reflexivity|]. apply filter_In. split; [apply dget_In, Er|reflexivity].
      + rewrite (C2 a r' Hin Er) in Hc. discriminate.
    - intros ([b r] & E & Hin). cbn in E. injection E as -> <-. apply filter_In in Hin. destruct Hin as [Hin _].
      apply In_dget in Hin; [|exact Ht]. destruct (C1 a r Hin) as (r' & E & _ & E2 & E3). exists (a, r'). cbn [fst snd]. rewrite E2. split; [reflexivity|].
      apply filter_In. split; [apply dget_In, E|]. cbn [fst snd]. unfold charged. rewrite E, Hl. unfold latent_in. rewrite Hin, E3. destruct (is_observed r); reflexivity.
  Qed.

  Lemma reused_latent (ct tr : trace L) a : latent_in (reused_from ct tr) a = latent_in tr a.
  Proof.
    unfold latent_in. induction tr as [|[b r] tr IH]; [reflexivity|]. cbn [reused_from map dget fst snd].
    destruct (String.eqb a b); [|exact IH]. unfold is_observed. cbn [rv_prov]. destruct (rv_prov r); cbn; destruct (dmem b ct); reflexivity.
  Qed.
  Lemma covers_agrees (qt tr : trace L) : covers qt tr -> agrees qt tr.
  Proof. intros [H _] a r r' E1 E2. destruct (H a r E1) as (r'' & E & Hv & _ & Ho). rewrite E2 in E. injection E as <-. split; assumption. Qed.
  Lemma covers_draws (qt tr : trace L) : wf_dict tr -> covers qt tr -> other_draws qt tr = [].
  Proof.
    intros Hw [H _]. unfold other_draws. replace (filter _ _) with (@nil (string * rv L)); [reflexivity|]. symmetry.
    assert (G : forall t, (forall a r, In (a, r) t -> dmem a qt = true) -> filter (fun ar : string * rv L => negb (dmem (fst ar) qt)) t = []).
    { induction t as [|[a r] t IH]; intros G; [reflexivity|]. cbn [filter fst]. rewrite (G a r (or_introl eq_refl)). cbn [negb]. apply IH. intros a' r' Hi. apply (G a' r'). right. exact Hi. }
    apply G. intros a r Hin. apply In_dget in Hin; [|exact Hw]. destruct (H a r Hin) as (r' & E & _). unfold dmem. rewrite E. reflexivity.
  Qed.
End Self.

(** C101. Propose with a proposal that covers what the target may produce itself: if every trace of the
    proposal has the variables of some run of the target, with their values and densities, and otherwise
    latent variables only, then the incremental weight is one (its logarithm is a number minus itself), the
    weight is that of the proposal, the target draws nothing, and the values and the output are those of the
    run (detached). *)
Theorem C101_own_trace : forall (L : lib) (HL : lib_laws L) oid pid sg (m : pyval (T L) -> dict (pyval (T L)) -> model L) q o nr c kws s r s',
  (forall c kws, statements (m c kws)) -> wf_dict kws -> wf_st s ->
  (forall rep pv, lj_ok L (kwarg "reparameterized" (VBool true) kws) rep pv = true) ->
  (forall qo s1, returns (run q c (sub_kwargs (in_ix o) kws)) s qo s1 -> exists s0 o0 s0',
     wf_st s0 /\ get_cond pid s0 = None /\ store s0 = store s1 /\
     returns (run (IProg pid sg m) c (sub_kwargs (in_ix o) kws)) s0 o0 s0' /\ covers (out_trace qo) (out_trace o0)) ->
  returns (run (IPropose oid (IProg pid sg m) q o None nr) c kws) s r s' ->
  exists qo s1 px x s0 o0 s0',
    returns (run q c (sub_kwargs (in_ix o) kws)) s qo s1 /\
    out_px r = Some px /\ px_lv px = tsub L x x /\ out_lw r = detach L (tadd L (out_lw qo) (tsub L x x)) /\
    returns (run (IProg pid sg m) c (sub_kwargs (in_ix o) kws)) s0 o0 s0' /\ covers (out_trace qo) (out_trace o0) /\
    (exists y, run (IProg pid sg m) c (sub_kwargs (in_ix o) kws) (set_cond pid (Some (out_trace qo)) s1) = Leaf y) /\
    map (fun ar => (fst ar, rv_value (snd ar))) (out_trace r) =
      map (fun ar => (fst ar, if nr then rv_value (snd ar) else detach L (rv_value (snd ar)))) (out_trace o0) /\
    out_output r = detach_output (out_output o0).
Proof.
  intros L HL oid pid sg m q o nr c kws s r s' Hm Hk Hs Hlj Hq H.
  destruct (C09_propose_law L HL oid _ q o None nr c kws s r s' Hk Hs H) as (qo & s1 & po & s2 & qt & px & mt & mo & Hl).
  cbn zeta in Hl. destruct Hl as (Hqr & Hpr & _ & Hwq & Hwp & Hw1 & Etf & Epx & Elv & Elw & _ & _ & _ & _ & Htp & Hwm & Eout & Etr & _).
  cbn [apply_transf] in Etf. injection Etf as <-. destruct (Hq qo s1 Hqr) as (s0 & o0 & s0' & Hw & Hc & Hst & Hf & Hcov).
  assert (Hw0 : wf_dict (out_trace o0)).
  { exact (proj1 (forward_weight L HL pid sg m c _ s0 o0 s0' Hw Hf)). }
  cbn [oid_of] in Hpr.
  destruct (C100_replay L HL pid sg m c _ s0 o0 s0' (set_cond pid (Some (out_trace qo)) s1) (out_trace qo) Hm Hc Hf)
    as (o' & s2' & Hp & Eo & Et & Ew & _).
  - apply get_set_same.
  - apply wf_set_cond; [exact Hw1|]. intros tr E. injection E as <-. exact Hwq.
  - symmetry. exact Hst.
  - apply covers_agrees, Hcov.
  - intros a v pv _. apply Hlj.
  - rewrite (covers_draws L _ _ Hw0 Hcov) in Hp.
    assert (po = o').
    { unfold returns in Hpr. revert Hp Hpr. generalize (run (IProg pid sg m) c (sub_kwargs (in_ix o) kws) (set_cond pid (Some (out_trace qo)) s1)).
      intros t Hp Hpr. destruct t; inversion Hp; subst. inversion Hpr; subst. reflexivity. }
    subst po. exists qo, s1, px, (out_lw o'), s0, o0, s0'.
    assert (Ex : px_lv px = tsub L (out_lw o') (out_lw o')).
    { rewrite Elv. f_equal. rewrite Ew. change (kwarg "sample_dims" VNone (sub_kwargs (in_ix o) kws)) with (kwarg (L := L) "sample_dims" VNone kws).
      change (kwarg "batch_dim" VNone (sub_kwargs (in_ix o) kws)) with (kwarg (L := L) "batch_dim" VNone kws).
      rewrite (covers_sum L HL _ _ (out_trace qo) (out_trace o0)); [|assumption..|intros a; rewrite Et; apply reused_latent].
      apply (logp_sum_ext L). intros a v Hin. apply In_dget in Hin; [|exact Hw0]. destruct Hcov as [Hcov _]. destruct (Hcov a v Hin) as (v' & E & _).
      unfold dmem. rewrite E. symmetry. apply orb_true_r. }
    cbn [target_part] in Htp. destruct Htp as [-> ->].
    split; [exact Hqr|]. split; [exact Epx|]. split; [exact Ex|]. split; [rewrite Elw, Ex; reflexivity|]. split; [exact Hf|]. split; [exact Hcov|].
    split; [|split; [|rewrite Eout, Eo; reflexivity]].
    { exists (Ok o', s2'). revert Hp. generalize (run (IProg pid sg m) c (sub_kwargs (in_ix o) kws) (set_cond pid (Some (out_trace qo)) s1)).
      intros t Hp. destruct t; inversion Hp; subst. reflexivity. }
    rewrite Et in Etr. destruct nr.
    + rewrite Etr. unfold reused_from. rewrite map_map. reflexivity.
    + clear - Etr. unfold detached_rerun in Etr. revert Etr. generalize (out_trace o0) as t, (out_trace r) as t'.
      induction t as [|[a v] t IH]; intros t' H; inversion H as [|? [b v'] ? l' Hab H']; subst; [reflexivity|]. cbn [map fst snd]. rewrite (IH _ H'). f_equal.
      cbn [fst snd rv_value] in Hab. destruct Hab as (-> & -> & _). reflexivity.
Qed.
Print Assumptions C101_own_trace.

(** In particular: a program that does not write to the store, proposed to itself. *)
Theorem C101_itself : forall (L : lib) (HL : lib_laws L) oid pid sg (m : pyval (T L) -> dict (pyval (T L)) -> model L) i u sgu oc o nr c kws s r s',
  (forall c kws, statements (m c kws)) -> wf_dict kws -> wf_st s ->
  (forall rep pv, lj_ok L (kwarg "reparameterized" (VBool true) kws) rep pv = true) ->
  get_cond pid s = None -> in_loss oc = default_loss -> in_ix oc = VNone ->
  (forall o1 s1, returns (run (IProg pid sg m) c (sub_kwargs (in_ix o) kws)) s o1 s1 -> store s1 = store s) ->
  returns (run (IPropose oid (IProg pid sg m) (ICompose i (pass u sgu) (IProg pid sg m) oc) o None nr) c kws) s r s' ->
  exists o1 s1 px x,
    returns (run (IProg pid sg m) c (sub_kwargs (in_ix o) kws)) s o1 s1 /\
    out_px r = Some px /\ px_lv px = tsub L x x /\
    out_lw r = detach L (tadd L (logp_sum (kwarg "sample_dims" VNone kws) (kwarg "batch_dim" VNone kws)
                                   (fun _ v => is_observed v) (out_trace o1)) (tsub L x x)).
Proof.
  intros L HL oid pid sg m i u sgu oc o nr c kws s r s' Hm Hk Hs Hlj Hc Hl Hix Hst H.
  assert (G : forall qo s1, returns (run (ICompose i (pass u sgu) (IProg pid sg m) oc) c (sub_kwargs (in_ix o) kws)) s qo s1 ->
    exists o1 s1', returns (run (IProg pid sg m) c (sub_kwargs (in_ix o) kws)) s o1 s1' /\ same_sample qo o1 /\ store s1 = store s1').
  { intros qo s1 Hq. apply outcome_path in Hq. destruct Hq as [ds Hq].
    destruct (C83_unit_last L HL i u sgu (IProg pid sg m) oc c (sub_kwargs (in_ix o) kws) s (wf_sub_kwargs _ _ Hk) Hs Hl) as [G _].
    destruct (G ds qo s1 Hq) as (o1 & s1' & Hp & Hss & (_ & Hag & _)). rewrite Hix, sub_again in Hp.
    exists o1, s1'. split; [exact (path_outcome _ _ _ _ Hp)|]. split; [exact Hss|exact Hag]. }
  destruct (C101_own_trace L HL oid pid sg m (ICompose i (pass u sgu) (IProg pid sg m) oc) o nr c kws s r s' Hm Hk Hs Hlj) with (2 := H) as (qo & s1 & px & x & s0 & o0 & s0' & Hq & Epx & Elv & Elw & _).
  - intros qo s1 Hq. destruct (G qo s1 Hq) as (o1 & s1' & Hr & (Et & _) & Es). exists s, o1, s1'. split; [exact Hs|]. split; [exact Hc|].
    split; [rewrite Es, (Hst o1 s1' Hr); reflexivity|]. split; [exact Hr|]. rewrite Et. split.
    + intros a v E. exists v. auto.
    + intros a v E E'. congruence.
  - destruct (G qo s1 Hq) as (o1 & s1' & Hr & (Et & Ew & _) & _). exists o1, s1', px, x. split; [exact Hr|]. split; [exact Epx|]. split; [exact Elv|].
    rewrite Elw, Ew. do 2 f_equal. destruct (forward_weight L HL pid sg m c _ s o1 s1' Hs Hr) as [_ ->]. rewrite Hc.
    apply (logp_sum_ext L). intros a v _. cbn [latent_in_opt]. apply orb_false_r.
Qed.
Print Assumptions C101_itself.

(** a case: x ~ 3 with y = 7 observed under 5, proposed to itself; the weight is that of the observation *)
Definition self_ex : inf ZL := IPropose (L := ZL) 13 P_xy (ICompose (L := ZL) 12 (pass 11 sig_model) P_xy opts0) opts0 None false.
Example C101_call : exists o s', returns (run self_ex VNone []) (st0 ZL) o s' /\
  (option_map px_lv (out_px o), out_lw o) = (Some (true, 0, 0)%Z, (true, -4, 0)%Z).
Proof. apply (seen_by (L := ZL) _ _ [zten 9] (fun o _ => _)). vm_compute. reflexivity. Qed.
Example C101_hypotheses : (forall c kws, statements (xy_model c kws)) /\ wf_st (st0 ZL) /\ get_cond 1 (st0 ZL) = None /\
  (forall o1 s1, returns (run P_xy VNone (sub_kwargs VNone [])) (st0 ZL) o1 s1 -> store s1 = store (st0 ZL)).
Proof.
  split; [|split; [|split; [reflexivity|]]].
  - intros c kws. apply (st_var (L := ZL) _ _ None). intros x. apply (st_var (L := ZL) _ _ (Some _)). intros y. constructor.
  - intros i t H. discriminate.
  - intros o1 s1 H. unfold returns in H. cbn in H. inversion H as [|? ? v ? H']; subst. cbn in H'. inversion H'; subst. reflexivity.
Qed.
