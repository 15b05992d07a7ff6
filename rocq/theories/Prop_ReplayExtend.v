(** Property C100 for Extend: a program extended by a kernel is replayed under the trace it returned. *)
From Verif Require Import Thm_Program Thm_Combinators Thm_Scope Thm_Session Thm_Proper RunEq Prop_Algebra Prop_Combinators Prop_Replay SpecReplay.

Section Replay.
  Context (L : lib) (HL : lib_laws L).
  Lemma other_app (ct a b : trace L) : other_draws ct (a ++ b) = other_draws ct a ++ other_draws ct b.
  Proof. unfold other_draws, sampled_draws. rewrite filter_app. rewrite ?filter_app, ?flat_map_app, ?map_app. reflexivity. Qed.
  Lemma tsum_two (l l' : list (T L)) : tsum (l ++ l') = tadd L (tsum l) (tsum l').
  Proof.
    unfold tsum. induction l as [|x l IH]; cbn; [rewrite (tadd_zero L HL); reflexivity|]. rewrite IH. apply (tadd_assoc L HL).
  Qed.
  Lemma logp_two sd bd P (a b : trace L) : logp_sum sd bd P (a ++ b) = tadd L (logp_sum sd bd P a) (logp_sum sd bd P b).
  Proof. unfold logp_sum. rewrite filter_app, map_app. apply tsum_two. Qed.
End Replay.

(** The extended program, called again under (part of) the trace it returned, redraws the variables that
    are not given; with their former values it returns the same output, marginal and trace.  The weight
    has the observed and given variables of the program, and all variables of the kernel. *)
Theorem C100_extend : forall (L : lib) (HL : lib_laws L) oid pid fid sg sgf
    (m mf : pyval (T L) -> dict (pyval (T L)) -> model L) o c kws s r s1 s2 ct,
  let t := IExtend oid (IProg pid sg m) (IProg fid sgf mf) o in
  (forall c kws, statements (m c kws)) -> (forall c kws, statements (mf c kws)) ->
  oid <> pid -> oid <> fid -> wf_dict kws -> clash ["self"; "c"; "fn"] kws = false -> wf_st s -> wf_st s2 ->
  (forall r l, exists l', in_loss o r l = Ok l') ->
  (forall rep pv, lj_ok L (kwarg "reparameterized" (VBool true) kws) rep pv = true) ->
  get_cond oid s = None -> returns (run t c kws) s r s1 ->
  get_cond oid s2 = Some ct -> store s2 = store s -> agrees ct (out_trace r) ->
  exists r' s2' own v,
    path (run t c kws s2) (other_draws ct (out_trace r)) (Ok r', s2') /\
    out_output r' = out_output r /\ out_trace r' = reused_from ct (out_trace r) /\
    out_marginal r = Some (own, v) /\ out_marginal r' = Some (own, v) /\
    out_lw r' = logp_sum (kwarg "sample_dims" VNone kws) (kwarg "batch_dim" VNone kws)
                  (fun a x => is_observed x || dmem a ct || negb (mem a own)) (out_trace r) /\
    store s2' = store s1.
Proof.
  intros L HL oid pid fid sg sgf m mf o c kws s r s1 s2 ct t Hm Hmf N1 N2 Hk Hcl Hs Hs2 Hloss Hlj Hc H Hc2 Hst Hag.
  assert (Hsub : ~ In oid (substituted t)) by (cbn; intuition congruence).
  destruct (C07_extend_law L HL oid _ _ o c kws s r s1 Hk Hs Hsub H) as (po & sp & fo & sf & Hl). cbn zeta in Hl. rewrite Hc in Hl. cbn [oid_of is_some] in Hl.
  destruct Hl as (Hp & Hf & Es1 & Elw & _ & Eo & Em & Hker & _ & Et & Hwp & Hwf). rewrite Et in *.
  pose proof (proj1 (run_returns_wf _ _ _ _ _ _ Hk Hs H)) as Hwr.
  assert (Hd : forall k, In k (dkeys (out_trace fo)) -> ~ In k (dkeys (out_trace po))).
  { intros k K1 K2. exact (proj1 (proj2 Hker) k K2 K1). }
  assert (Ap : agrees ct (out_trace po)).
  { intros a x x' E1 E2. apply (Hag a x x'); [|exact E2]. apply In_dget; [rewrite <- Et; exact Hwr|]. apply in_or_app. left. apply dget_In, E1. }
  assert (Af : agrees ct (out_trace fo)).
  { intros a x x' E1 E2. apply (Hag a x x'); [|exact E2]. apply In_dget; [rewrite <- Et; exact Hwr|]. apply in_or_app. right. apply dget_In, E1. }
  set (kw := sub_kwargs (in_ix o) kws) in *.
  assert (Hct : wf_dict ct) by (apply (Hs2 oid); exact Hc2).
  set (s0 := set_cond fid (Some ct) (set_cond pid (Some ct) s2)).
  assert (Hs0 : wf_st s0) by (unfold s0; apply wf_set_cond; [apply wf_set_cond; [exact Hs2|]|]; intros tr E; injection E as <-; exact Hct).
  destruct (C100_replay L HL pid sg m c kw (set_cond fid None (set_cond pid None s)) po sp s0 ct Hm) as (po' & sp' & Pp & Op & Tp & Wp & Sp & Cp).
  { destruct (Nat.eq_dec pid fid) as [->|Hne]; [apply get_set_same|]. rewrite get_set_other by exact Hne. apply get_set_same. }
  { exact Hp. }
  { unfold s0. destruct (Nat.eq_dec pid fid) as [->|Hne]; [apply get_set_same|]. rewrite get_set_other by exact Hne. apply get_set_same. }
  { exact Hs0. }
  { exact Hst. }
  { exact Ap. }
  { intros a x pv _. apply Hlj. }
  assert (Hsp : wf_st sp').
  { apply (run_wf_st _ _ _ _ _ _ (path_outcome _ _ _ _ Pp) Hs0). }
  destruct (C100_replay L HL fid sgf mf (out_output po) kw sp fo sf sp' ct Hmf) as (fo' & sf' & Pf & Of & Tf & Wf & Sf & Cf).
  { apply (proj1 (proj2 (run_scoped L _ _ _ _ _ _ Hp))). apply get_set_same. }
  { exact Hf. }
  { unfold get_cond. rewrite Cp. apply (get_set_same fid (Some ct)). }
  { exact Hsp. }
  { exact Sp. }
  { exact Af. }
  { intros a x pv _. apply Hlj. }
  rewrite <- Op in Pf.
  destruct (C08_extend_contract L HL oid (IProg pid sg m) (IProg fid sgf mf) o c kws s2 (other_draws ct (out_trace po)) po' sp' (other_draws ct (out_trace fo)) fo' sf' Hk Hs2 Hcl Hsub) as [_ G].
  { rewrite Hc2. exact Pp. }
  { exact Pf. }
  rewrite Hc2 in G. cbn [is_some] in G. destruct G as [r' Hr'].
  { destruct Hker as (K1 & K2 & _). split; [|split; [|discriminate]].
    - intros a x Hin. rewrite Tf in Hin. unfold reused_from in Hin. apply in_map_iff in Hin. destruct Hin as ([b y] & E & Hin). injection E as <- <-. cbn [rv_prov].
      specialize (K1 b y Hin). unfold is_observed. destruct (rv_prov y); cbn; [|contradiction|]; destruct (dmem b ct); discriminate.
    - rewrite Tp, Tf. intros k A B. rewrite reused_keys in A, B. exact (K2 k A B). }
  { exact Hloss. }
  { exact Hlj. }
  assert (Etail : extend_tail o kws (Some ct) po' fo' = Ok r').
  { pose proof (run_extend_eq oid (IProg pid sg m) (IProg fid sgf mf) o c kws s2 Hk Hs2 Hcl) as Q. cbn zeta in Q. rewrite Hc2 in Q.
    pose proof (teq_path _ _ _ _ Q Hr') as R. cbn [oid_of] in R. fold kw in R. fold s0 in R.
    match type of R with path ?tt ?dd _ => eassert (R' : path tt dd _) end.
    { eapply path_bind; [exact Pp|]. cbn [fst snd]. rewrite <- (app_nil_r (other_draws ct (out_trace fo))). eapply path_bind; [exact Pf|]. cbn [fst snd]. constructor. }
    destruct (path_det _ _ _ R _ _ R' eq_refl) as [_ E]. injection E as E. rewrite E. f_equal. symmetry.
    rewrite !get_set_other by assumption. unfold get_cond. rewrite Cf, Cp. change (get_cond oid s0 = Some ct). unfold s0. rewrite !get_set_other by assumption. exact Hc2. }
  assert (Hwp' : wf_dict (out_trace po')) by (rewrite Tp; unfold wf_dict; rewrite reused_keys; exact Hwp).
  assert (Hwf' : wf_dict (out_trace fo')) by (rewrite Tf; unfold wf_dict; rewrite reused_keys; exact Hwf).
  destruct (extend_tail_facts HL o kws ct po' fo' r' Hwp' Hwf' Etail) as (Tr & _ & Wr & Or & Mr).
  exists r', (set_cond pid None (set_cond fid None sf')), (dkeys (out_trace po)), (out_output po).
  split; [rewrite other_app; exact Hr'|]. split; [rewrite Or, Of; symmetry; exact Eo|]. split; [rewrite Tr, Tp, Tf; symmetry; apply reused_app|].
  split; [exact Em|]. split; [rewrite Mr, Tp, reused_keys, Op; reflexivity|]. split; [|rewrite Es1; exact Sf].
  rewrite Wr, Wp, Tf, logp_two by exact HL. change (kwarg "sample_dims" VNone kw) with (kwarg (L := L) "sample_dims" VNone kws).
  change (kwarg "batch_dim" VNone kw) with (kwarg (L := L) "batch_dim" VNone kws). f_equal.
  - apply (logp_sum_ext L). intros a x Hin. assert (E : mem a (dkeys (out_trace po)) = true) by (apply mem_In; exact (in_map fst _ _ Hin)).
    rewrite E. symmetry. apply orb_false_r.
  - apply logp_sum_reused. intros a x Hin pv _. rewrite orb_true_r.
    assert (E : mem a (dkeys (out_trace po)) = false).
    { destruct (mem a (dkeys (out_trace po))) eqn:E; [|reflexivity]. apply mem_In in E. exfalso. exact (Hd a (in_map fst _ _ Hin) E). }
    rewrite E. symmetry. apply orb_true_r.
Qed.
Print Assumptions C100_extend.

(** a case: x ~ 3 with y = 7 observed, extended by z ~ 4; replayed under {z: 8} with x = 9 drawn again *)
Example C100_extend_case : exists r s1,
  returns (run extend_ex VNone []) (st0 ZL) r s1 /\ (forall c kws, statements (xy_model c kws)) /\ (forall c kws, statements (z_model c kws)) /\
  agrees [("z", node 8)] (out_trace r) /\ get_cond 11 (st_cond 11 [("z", node 8)]) = Some [("z", node 8)] /\
  map (@snd _ _) (other_draws [("z", node 8)] (out_trace r)) = [zten 9].
Proof.
  eexists _, _. split; [apply (walk_outcome (L := ZL) _ [zten 9; zten 8]); reflexivity|].
  split; [intros c kws; apply (st_var (L := ZL) _ _ None); intros x; apply (st_var (L := ZL) _ _ (Some _)); intros y; constructor|].
  split; [intros c kws; apply (st_var (L := ZL) _ _ None); intros x; constructor|].
  split; [|split; reflexivity].
  intros a r r' H1 H2. cbn in H1, H2. destruct (String.eqb_spec a "z") as [->|Hx]; [|discriminate].
  injection H2 as <-. cbn in H1. injection H1 as <-. split; reflexivity.
Qed.
