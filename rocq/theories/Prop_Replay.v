(** Property C100: replaying a program under (part of) a trace it returned. *)
From Verif Require Import Thm_Program Thm_Scope SpecReplay.

Section Replay.
  Context (L : lib).

  Lemma reused_keys (ct tr : trace L) : dkeys (reused_from ct tr) = dkeys tr.
  Proof. unfold dkeys, reused_from. rewrite map_map. reflexivity. Qed.
  Lemma reused_dmem (ct tr : trace L) a : dmem a (reused_from ct tr) = dmem a tr.
  Proof.
    destruct (dmem a tr) eqn:E.
    - apply dmem_In. rewrite reused_keys. apply dmem_In, E.
    - apply dmem_not_In. rewrite reused_keys. apply dmem_not_In, E.
  Qed.
  Lemma reused_app (ct a b : trace L) : reused_from ct (a ++ b) = reused_from ct a ++ reused_from ct b.
  Proof. apply map_app. Qed.

  Lemma exec_replay (m : model L) : statements m -> forall tr s ds o tr1 s1, wf_dict tr ->
    path (exec None m tr s) ds (Ok (o, tr1), s1) ->
    forall ct, agrees ct tr1 -> forall s2, store s2 = store s ->
    exists new s1', tr1 = tr ++ new /\ wf_dict tr1 /\
      path (exec (Some ct) m (reused_from ct tr) s2) (other_draws ct new) (Ok (o, reused_from ct tr1), s1') /\
      store s1' = store s1 /\ conds s1' = conds s2.
  Proof.
    induction 1 as [o0|e|a d v rep k Hk IH|key k Hk IH|key w k Hk IH];
      intros tr s ds o tr1 s1 Hwf H ct Hag s2 Hst; cbn [exec] in *.
    - apply path_leaf_inv in H. destruct H as [-> H]. injection H as <- <- <-.
      exists [], s2. rewrite app_nil_r. split; [reflexivity|]. split; [exact Hwf|]. split; [constructor|]. split; [exact Hst|reflexivity].
    - apply path_leaf_inv in H. destruct H as [_ H]. discriminate.
    - assert (Hfin : forall x p ds0,
        path (mbind (lift (add_node a (mkRV (Proper d) x (logp L d x) p rep true) tr)) (fun tr' => exec None (k x) tr') s) ds0 (Ok (o, tr1), s1) ->
        exists new s1', tr1 = tr ++ (a, mkRV (Proper d) x (logp L d x) p rep true) :: new /\ wf_dict tr1 /\
          (let p' := if prov_eqb p OBSERVED then OBSERVED else if dmem a ct then REUSED else SAMPLED in
           path (mbind (lift (add_node a (mkRV (Proper d) x (logp L d x) p' rep true) (reused_from ct tr))) (fun tr' => exec (Some ct) (k x) tr') s2)
             (other_draws ct new) (Ok (o, reused_from ct tr1), s1')) /\
          store s1' = store s1 /\ conds s1' = conds s2).
      { intros x p ds0 H0. unfold mbind in H0. apply path_tbind in H0.
        destruct H0 as (ds1 & [[tr'|e] s'] & ds2 & H1 & H2 & ->); unfold lift in H1; apply path_leaf_inv in H1; destruct H1 as [-> H1].
        2:{ cbn [fst snd] in H2. apply path_leaf_inv in H2. destruct H2 as [_ H2]. discriminate. }
        injection H1 as H1 <-. cbn [fst snd app] in *. apply add_node_wf in H1; [|exact Hwf]. destruct H1 as (Hwf1 & Hni & ->).
        destruct (IH x _ _ _ _ _ _ Hwf1 H2 ct Hag s2 Hst) as (new & s1' & -> & Hwf2 & Hp & Hs & Hc).
        exists new, s1'. rewrite <- app_assoc in *. cbn [app] in *. split; [reflexivity|]. split; [exact Hwf2|]. split; [|split; assumption]. cbn zeta.
        eapply path_bind_pure; [|exact Hp]. unfold lift, add_node.
        rewrite reused_dmem. assert (E : dmem a tr = false) by (apply dmem_not_In; exact Hni). rewrite E. do 3 f_equal.
        rewrite dset_new by (rewrite reused_keys; exact Hni). rewrite reused_app. reflexivity. }
      destruct v as [x|]; cbn [option_map] in *.
      + destruct (Hfin x OBSERVED ds H) as (new & s1' & E & Hwf1 & Hp & Hs & Hc).
        exists ((a, mkRV (Proper d) x (logp L d x) OBSERVED rep true) :: new), s1'. split; [exact E|]. split; [exact Hwf1|]. split; [|split; assumption].
        replace (other_draws ct (_ :: new)) with (other_draws ct new); [exact Hp|].
        unfold other_draws. cbn [filter fst]. destruct (negb (dmem a ct)); reflexivity.
      + inversion H as [|? ? x ds' ? H']; subst. destruct (Hfin x SAMPLED ds' H') as (new & s1' & E & Hwf1 & Hp & Hs & Hc).
        exists ((a, mkRV (Proper d) x (logp L d x) SAMPLED rep true) :: new), s1'. split; [exact E|]. split; [exact Hwf1|]. split; [|split; assumption].
        cbn [prov_eqb] in Hp. unfold dmem in Hp at 1. unfold other_draws. cbn [filter fst]. unfold dmem at 1. destruct (dget a ct) as [r'|] eqn:Ec.
        * cbn [negb]. assert (Ex : rv_value r' = x).
          { apply (Hag a (mkRV (Proper d) x (logp L d x) SAMPLED rep true) r'); [|exact Ec]. apply In_dget; [exact Hwf1|]. rewrite E. apply in_or_app. right. left. reflexivity. }
          rewrite Ex. exact Hp.
        * cbn [negb]. apply path_draw. exact Hp.
    - destruct (IH (dget key (store s)) _ _ _ _ _ _ Hwf H ct Hag s2 Hst) as (new & s1' & Hx). exists new, s1'. rewrite Hst. exact Hx.
    - destruct (IH _ _ _ _ _ _ Hwf H ct Hag (set_store (dset key w (store s2)) s2)) as (new & s1' & H1 & H2 & H3 & H4 & H5).
      { cbn. rewrite Hst. reflexivity. }
      exists new, s1'. repeat split; try assumption.
  Qed.

  Lemma reused_prov (ct tr : trace L) a r : In (a, r) (reused_from ct tr) ->
    exists r0, In (a, r0) tr /\ rv_rep r = rv_rep r0.
  Proof. unfold reused_from. rewrite in_map_iff. intros ([a0 r0] & E & Hin). injection E as <- <-. exists r0. split; [exact Hin|reflexivity]. Qed.

  Lemma logp_sum_reused sd bd (P Q : string -> rv L -> bool) (ct tr : trace L) :
    (forall a r, In (a, r) tr -> forall p, p = (if is_observed r then OBSERVED else if dmem a ct then REUSED else SAMPLED) ->
       P a (mkRV (rv_den r) (rv_value r) (rv_logp r) p (rv_rep r) (rv_resamplable r)) = Q a r) ->
    logp_sum sd bd P (reused_from ct tr) = logp_sum sd bd Q tr.
  Proof.
    intros H. unfold logp_sum. f_equal. induction tr as [|[a r] tr IH]; [reflexivity|]. cbn [reused_from map filter fst snd].
    rewrite (H a r (or_introl eq_refl) _ eq_refl). specialize (IH (fun a' r' Hin => H a' r' (or_intror Hin))). unfold reused_from in IH.
    destruct (Q a r); cbn [map snd rv_logp]; rewrite IH; reflexivity.
  Qed.
End Replay.

(** C100. A program called again with the same argument, under a trace that agrees with the one it
    returned: it draws the variables that are not in that trace, and if they get the values they had, the
    call returns the same output and the same trace, with the variables of the given trace marked REUSED;
    its log-weight is the log-density of what was observed or given. *)
Theorem C100_replay : forall (L : lib) (HL : lib_laws L) oid sg (m : pyval (T L) -> dict (pyval (T L)) -> model L) c kws s o s1 s2 ct,
  (forall c kws, statements (m c kws)) ->
  get_cond oid s = None -> returns (run (IProg oid sg m) c kws) s o s1 ->
  get_cond oid s2 = Some ct -> wf_st s2 -> store s2 = store s -> agrees ct (out_trace o) ->
  (forall a r p, In (a, r) (out_trace o) -> lj_ok L (kwarg "reparameterized" (VBool true) kws) (rv_rep r) p = true) ->
  exists o' s2',
    path (run (IProg oid sg m) c kws s2) (other_draws ct (out_trace o)) (Ok o', s2') /\
    out_output o' = out_output o /\ out_trace o' = reused_from ct (out_trace o) /\
    out_lw o' = logp_sum (kwarg "sample_dims" VNone kws) (kwarg "batch_dim" VNone kws)
                  (fun a r => is_observed r || dmem a ct) (out_trace o) /\
    store s2' = store s1 /\ conds s2' = conds s2.
Proof.
  intros L HL oid sg m c kws s o s1 s2 ct Hm Hc H Hc2 Hwf2 Hst Hag Hlj. apply outcome_path in H. destruct H as [ds H].
  assert (G : exists o' s2', path (run (IProg oid sg m) c kws s2) (other_draws ct (out_trace o)) (Ok o', s2') /\
    out_output o' = out_output o /\ out_trace o' = reused_from ct (out_trace o) /\ (store s2' = store s1 /\ conds s2' = conds s2) /\ wf_dict (out_trace o)).
  { cbn [run] in *. unfold forward in *. destruct (clash ["self"] kws || _).
    { apply path_leaf_inv in H. destruct H as [_ H]. discriminate. }
    set (passed := filter _ _) in *. unfold mbind at 1 2 in H. unfold get, modify in H. cbn [tbind fst snd] in H. rewrite Hc in H.
    unfold mbind in H. apply path_tbind in H. destruct H as (ds1 & [[[ou tr]|e] s'] & ds2 & H1 & H2 & ->).
    2:{ cbn in H2. apply path_leaf_inv in H2. destruct H2 as [_ H2]. discriminate. }
    cbn [fst snd] in H2. unfold lift, ret in H2.
    destruct (log_joint _ _ _ _ tr) as [lw|e]; cbn [tbind fst snd] in H2; apply path_leaf_inv in H2; destruct H2 as [-> H2]; [|discriminate].
    injection H2 as <- <-. cbn [out_trace out_output] in *.
    destruct (exec_replay L (m c passed) (Hm c passed) [] _ _ _ _ _ wf_nil H1 ct Hag (log_call (mkCall oid c passed (Some ct)) s2) Hst)
      as (new & s1' & -> & Hwf & Hp & Hs' & Hc'). cbn [app] in *. change (reused_from ct []) with (@nil (string * rv L)) in Hp.
    match goal with |- context [log_joint ?sd ?bd ?rep] => destruct (log_joint sd bd rep
        (sdiff (dkeys (reused_from ct new)) (sdiff (latent_addrs (reused_from ct new)) (latent_addrs ct))) (reused_from ct new)) as [lw'|e] eqn:Elj end.
    2:{ exfalso. apply log_joint_err in Elj; [|exact HL]. destruct Elj as (_ & n & r & _ & Hd & Hf). apply dget_In, reused_prov in Hd.
        destruct Hd as (r0 & Hin & Er). rewrite Er, (Hlj n r0 _ Hin) in Hf. discriminate. }
    eexists. exists s1'. split.
    - eapply path_bind_pure; [reflexivity|]. rewrite Hc2. eapply path_bind_pure; [reflexivity|].
      replace (other_draws ct new) with (other_draws ct new ++ []) by apply app_nil_r.
      eapply path_bind_ok; [exact Hp|]. cbn beta iota. eapply path_bind_pure; [unfold lift; rewrite Elj; reflexivity|]. constructor.
    - cbn [out_output out_trace]. split; [reflexivity|]. split; [reflexivity|]. split; [split; [exact Hs'|exact Hc']|exact Hwf]. }
  destruct G as (o' & s2' & Hp & Ho & Ht & (Hs & Hcd) & Hwf). exists o', s2'. split; [exact Hp|]. split; [exact Ho|]. split; [exact Ht|]. split; [|split; assumption].
  destruct (forward_weight L HL oid sg m c kws s2 o' s2' Hwf2 (path_outcome _ _ _ _ Hp)) as [_ ->]. rewrite Hc2, Ht.
  apply logp_sum_reused. intros a r Hin p ->. cbn [latent_in_opt]. unfold latent_in, is_observed. cbn [rv_prov].
  assert (Hd : dget a (out_trace o) = Some r).
  { apply In_dget; [exact Hwf|exact Hin]. }
  destruct (prov_eqb (rv_prov r) OBSERVED) eqn:Eo; [reflexivity|]. unfold dmem. destruct (dget a ct) as [r'|] eqn:Ec; [|reflexivity].
  destruct (Hag a r r' Hd Ec) as [_ E]. unfold is_observed in E. rewrite E, Eo. reflexivity.
Qed.
Print Assumptions C100_replay.

(** Under the whole trace nothing is drawn: the call has one result, the one it had, now weighted by its
    joint density. *)
Theorem C100_whole_trace : forall (L : lib) (HL : lib_laws L) oid sg (m : pyval (T L) -> dict (pyval (T L)) -> model L) c kws s o s1 s2,
  (forall c kws, statements (m c kws)) ->
  get_cond oid s = None -> returns (run (IProg oid sg m) c kws) s o s1 ->
  get_cond oid s2 = Some (out_trace o) -> wf_st s2 -> store s2 = store s ->
  (forall a r p, In (a, r) (out_trace o) -> lj_ok L (kwarg "reparameterized" (VBool true) kws) (rv_rep r) p = true) ->
  exists o' s2',
    run (IProg oid sg m) c kws s2 = Leaf (Ok o', s2') /\
    out_output o' = out_output o /\
    map (fun ar => (fst ar, rv_value (snd ar), rv_logp (snd ar))) (out_trace o') =
      map (fun ar => (fst ar, rv_value (snd ar), rv_logp (snd ar))) (out_trace o) /\
    out_lw o' = logp_sum (kwarg "sample_dims" VNone kws) (kwarg "batch_dim" VNone kws) (fun _ _ => true) (out_trace o).
Proof.
  intros L HL oid sg m c kws s o s1 s2 Hm Hc H Hc2 Hwf2 Hst Hlj.
  assert (Hag : agrees (out_trace o) (out_trace o)) by (intros a r r' E1 E2; rewrite E1 in E2; injection E2 as <-; auto).
  destruct (C100_replay L HL oid sg m c kws s o s1 s2 (out_trace o) Hm Hc H Hc2 Hwf2 Hst Hag Hlj) as (o' & s2' & Hp & Ho & Ht & Hw & _).
  assert (Hin : forall a r, In (a, r) (out_trace o) -> dmem a (out_trace o) = true) by (intros a r Hi; apply dmem_In; exact (in_map fst _ _ Hi)).
  assert (E : other_draws (out_trace o) (out_trace o) = []).
  { unfold other_draws. replace (filter _ _) with (@nil (string * rv L)); [reflexivity|]. symmetry.
    assert (G : forall tr, (forall a r, In (a, r) tr -> dmem a (out_trace o) = true) -> filter (fun ar : string * rv L => negb (dmem (fst ar) (out_trace o))) tr = []).
    { induction tr as [|[a r] tr IH]; intros G; [reflexivity|]. cbn [filter fst]. rewrite (G a r (or_introl eq_refl)). cbn [negb]. apply IH. intros a' r' Hi. apply (G a' r'). right. exact Hi. }
    apply G, Hin. }
  rewrite E in Hp. exists o', s2'. split.
  { remember (run (IProg oid sg m) c kws s2) as t eqn:Et. clear Et. destruct t; inversion Hp; subst; reflexivity. }
  split; [exact Ho|]. split.
  - rewrite Ht. unfold reused_from. rewrite map_map. reflexivity.
  - rewrite Hw. apply (logp_sum_ext L). intros a r Hi. rewrite (Hin a r Hi). apply orb_true_r.
Qed.
Print Assumptions C100_whole_trace.

(** cases: the program with the latent variables a and x, first called freely (a = 6, x = 2), then under
    {x: 2} with a = 6 drawn again, then under both *)
Example C100_case : exists o s1,
  returns (run P_ax VNone []) (st0 ZL) o s1 /\ get_cond 3 (st0 ZL) = None /\ (forall c kws, statements (ax_model c kws)) /\
  agrees [("x", node 2)] (out_trace o) /\ store (st_cond 3 [("x", node 2)]) = store (st0 ZL) /\
  map (@snd _ _) (other_draws [("x", node 2)] (out_trace o)) = [zten 6].
Proof.
  eexists _, _. split; [apply (walk_outcome (L := ZL) _ [zten 6; zten 2]); reflexivity|]. split; [reflexivity|].
  split; [intros c kws; apply (st_var (L := ZL) _ _ None); intros x; apply (st_var (L := ZL) _ _ None); intros y; constructor|].
  split; [|split; reflexivity].
  intros a r r' H1 H2. cbn in H1, H2. destruct (String.eqb_spec a "x") as [->|Hx]; [|discriminate].
  injection H2 as <-. cbn in H1. injection H1 as <-. split; reflexivity.
Qed.
