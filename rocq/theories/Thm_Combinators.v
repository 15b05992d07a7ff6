(** Proofs of C05-C13, C40. *)
From Verif Require Export Thm_Scope Thm_Traces.

Section ThmCombinators.
  Context (L : lib).
  Notation pyval := (pyval (T L)).

  Lemma sd_fields dbg subs (o : out L) :
    out_trace (add_subs dbg subs o) = out_trace o /\ out_lw (add_subs dbg subs o) = out_lw o /\
    out_output (add_subs dbg subs o) = out_output o /\ out_type (add_subs dbg subs o) = out_type o /\
    out_ix (add_subs dbg subs o) = out_ix o /\ out_loss (add_subs dbg subs o) = out_loss o /\
    out_marginal (add_subs dbg subs o) = out_marginal o /\ out_px (add_subs dbg subs o) = out_px o.
  Proof. destruct dbg; repeat split. Qed.

  Lemma is_union_app (a b : trace L) : disjoint_keys a b -> is_union a b (a ++ b).
  Proof. intros H. split; [exact H|]. intros k. apply dget_app. Qed.
  Lemma is_union_sym (a b c : trace L) : is_union a b c -> is_union b a c.
  Proof.
    intros [Hd Hg]. split; [intros k Hb Ha; exact (Hd k Ha Hb)|]. intros k. rewrite Hg.
    destruct (dget k a) as [x|] eqn:Ea, (dget k b) as [y|] eqn:Eb; try reflexivity.
    exfalso. apply (Hd k); eapply dget_In_keys; eassumption.
  Qed.

  (** ** Compose *)
  Lemma compose_law oid q2 q1 o c kws s r s' :
    wf_dict kws -> wf_st s -> returns (run (L := L) (ICompose oid q2 q1 o) c kws) s r s' ->
    exists o1 s1 o2,
      returns (run q1 c (sub_kwargs (in_ix o) kws)) s o1 s1 /\
      returns (run q2 (out_output o1) (sub_kwargs (in_ix o) kws)) s1 o2 s' /\
      is_union (out_trace o1) (out_trace o2) (out_trace r) /\
      out_lw r = tadd L (out_lw o1) (out_lw o2) /\
      out_output r = out_output o2 /\ out_type r = TyCompose.
  Proof.
    intros Hk Hs H. apply run_compose_returns in H; [|exact Hk].
    destruct H as (o1 & s1 & o2 & tr & l & _ & _ & H1 & H2 & Hd & Ht & _ & ->).
    pose proof (wf_sub_kwargs (in_ix o) kws Hk) as Hk'.
    destruct (run_returns_wf _ _ _ _ _ _ Hk' Hs H1) as [W1 S1].
    destruct (run_returns_wf _ _ _ _ _ _ Hk' S1 H2) as [W2 S2].
    exists o1, s1, o2. split; [exact H1|]. split; [exact H2|].
    match goal with |- context [add_subs ?d ?sb ?x] => destruct (sd_fields d sb x) as (-> & -> & -> & -> & _) end.
    cbn. rewrite copytraces_two_disjoint in Ht by assumption. injection Ht as <-.
    split; [apply is_union_sym, is_union_app; exact Hd|]. repeat split.
  Qed.

  (** the run of a Compose is the run of q1 followed by the run of q2 *)
  Lemma compose_runs oid q2 q1 o c kws s ds1 o1 s1 ds2 o2 s2 :
    wf_dict kws -> wf_st s -> clash ["self"; "c"; "fn"] kws = false ->
    path (run (L := L) q1 c (sub_kwargs (in_ix o) kws) s) ds1 (Ok o1, s1) ->
    path (run q2 (out_output o1) (sub_kwargs (in_ix o) kws) s1) ds2 (Ok o2, s2) ->
    (~ disjoint_keys (out_trace o1) (out_trace o2) ->
       path (run (ICompose oid q2 q1 o) c kws s) (ds1 ++ ds2) (Err AssertionError, s2)) /\
    (disjoint_keys (out_trace o1) (out_trace o2) -> (forall r l, exists l', in_loss o r l = Ok l') ->
       exists r, path (run (ICompose oid q2 q1 o) c kws s) (ds1 ++ ds2) (Ok r, s2)).
  Proof.
    intros Hk Hs Hc H1 H2.
    assert (Hc1 : clash ["self"; "c"] kws = false /\ clash ["fn"] kws = false).
    { unfold clash in *. rewrite <- !not_true_iff_false, !existsb_exists in *. split; intros ([k v] & Hin & Hm).
      - apply Hc. exists (k, v). split; [exact Hin|]. cbn [fst] in *. rewrite mem_In in *. cbn in *. tauto.
      - apply Hc. exists (k, v). split; [exact Hin|]. cbn [fst] in *. rewrite mem_In in *. cbn in *. tauto. }
    destruct Hc1 as [Hc1 Hc2].
    pose proof (wf_sub_kwargs (in_ix o) kws Hk) as Hk'.
    destruct (run_returns_wf _ _ _ _ _ _ Hk' Hs (path_outcome _ _ _ _ H1)) as [W1 S1].
    destruct (run_returns_wf _ _ _ _ _ _ Hk' S1 (path_outcome _ _ _ _ H2)) as [W2 S2].
    pose proof (bind_call_ok kws Hc1) as Hb.
    assert (Hfn : clash ["fn"] (sub_kwargs (in_ix o) kws) = false).
    { rewrite clash_sub_kwargs by (cbn; intuition discriminate). exact Hc2. }
    assert (Hrun : forall x, 
      (forall b, bind_call kws = Ok b -> path (mbind (lift (copytraces no_excl LastWriteWins [out_trace o2; out_trace o1])) (fun tr =>
        mbind (massert (match sinter (dkeys (out_trace o2)) (dkeys (out_trace o1)) with
                        | [] => true | _ => false end)) (fun _ =>
        let r := mkOut tr (tadd L (out_lw o1) (out_lw o2)) (out_output o2) TyCompose (Some (resolve_ix (in_ix o) (b_ix b)))
                       None None None [] in
        mbind (lift (add_loss (in_loss o) (in_loss0 o) o1 r)) (fun r =>
        ret (add_subs (truthy (b_debug b) || in_debug o) [("q1_out", o1); ("q2_out", o2)] r)))) s2) [] x) ->
      path (run (ICompose oid q2 q1 o) c kws s) (ds1 ++ ds2) x).
    { intros x Hx. cbn [run]. eapply path_bind_pure; [rewrite Hb; reflexivity|].
      specialize (Hx _ Hb). rewrite (sub_kwargs_eq kws _ (in_ix o) Hb).
      eapply path_bind_ok; [apply path_mdispatch; [exact Hk'|exact Hfn|exact H1]|].
      rewrite <- (app_nil_r ds2).
      eapply path_bind_ok; [apply path_mdispatch; [exact Hk'|exact Hfn|exact H2]|].
      exact Hx. }
    split.
    - intros Hnd. apply Hrun. intros b _.
      destruct (copytraces_last L no_excl [out_trace o2; out_trace o1]) as (tr & Et & _).
      eapply path_bind_pure; [rewrite Et; reflexivity|].
      eapply path_bind_pure_err. unfold massert.
      destruct (sinter (dkeys (out_trace o2)) (dkeys (out_trace o1))) eqn:E; [|reflexivity].
      exfalso. apply Hnd. intros k Ha Hb'. apply sinter_nil with (k := k) in E; [contradiction|exact Hb'].
    - intros Hd Hl.
      assert (Hd' : disjoint_keys (out_trace o2) (out_trace o1)) by (intros k Ha Hb'; exact (Hd k Hb' Ha)).
      destruct (Hl (mkOut (out_trace o2 ++ out_trace o1) (tadd L (out_lw o1) (out_lw o2)) (out_output o2) TyCompose
                  (Some (resolve_ix (in_ix o) (kwarg "ix" VNone kws))) None None None [])
        (match out_loss o1 with Some l => l | None => match in_loss0 o with Some l => l | None => tzero L end end)) as [l El].
      eexists. apply Hrun. intros b Eb. rewrite Hb in Eb. injection Eb as <-.
      eapply path_bind_pure; [rewrite copytraces_two_disjoint by assumption; reflexivity|].
      eapply path_bind_pure.
      { assert (E : sinter (dkeys (out_trace o2)) (dkeys (out_trace o1)) = []) by (apply sinter_nil, Hd').
        rewrite E. reflexivity. }
      eapply path_bind_pure; [unfold add_loss; cbn [b_ix] in *; rewrite El; reflexivity|]. constructor.
  Qed.

  Lemma compose_propagates oid q2 q1 o c kws s ds1 e s1 :
    wf_dict kws -> clash ["self"; "c"; "fn"] kws = false ->
    path (run (L := L) q1 c (sub_kwargs (in_ix o) kws) s) ds1 (Err e, s1) ->
    path (run (ICompose oid q2 q1 o) c kws s) ds1 (Err e, s1).
  Proof.
    intros Hk Hc H1.
    assert (Hc1 : clash ["self"; "c"] kws = false /\ clash ["fn"] kws = false).
    { unfold clash in *. rewrite <- !not_true_iff_false, !existsb_exists in *. split; intros ([k v] & Hin & Hm).
      - apply Hc. exists (k, v). split; [exact Hin|]. cbn [fst] in *. rewrite mem_In in *. cbn in *. tauto.
      - apply Hc. exists (k, v). split; [exact Hin|]. cbn [fst] in *. rewrite mem_In in *. cbn in *. tauto. }
    destruct Hc1 as [Hc1 Hc2].
    cbn [run]. eapply path_bind_pure; [rewrite (bind_call_ok kws Hc1); reflexivity|].
    rewrite (sub_kwargs_eq kws _ (in_ix o) (bind_call_ok kws Hc1)).
    eapply path_bind_err. apply path_mdispatch; [apply wf_sub_kwargs, Hk| |exact H1].
    rewrite clash_sub_kwargs by (cbn; intuition discriminate). exact Hc2.
  Qed.

  (** ** Extend *)
  Lemma log_joint_all (HL : lib_laws L) sd bd rep (tr : trace L) x :
    wf_dict tr -> (forall a r, In (a, r) tr -> rv_prov r <> OBSERVED) ->
    log_joint sd bd rep (latent_addrs tr) tr = Ok x -> x = logp_sum sd bd (fun _ _ => true) tr.
  Proof.
    intros Hwf Hn H. apply log_joint_sum in H; [|exact HL|exact Hwf|apply NoDup_latent_addrs, Hwf].
    rewrite H. apply logp_sum_ext. intros a r Hin. apply mem_In, In_latent_addrs; [exact Hwf|].
    unfold latent_in. rewrite (In_dget a r) by assumption. apply Hn in Hin. unfold is_observed.
    destruct (rv_prov r); [reflexivity|congruence|reflexivity].
  Qed.

  Lemma extend_law (HL : lib_laws L) oid p f o c kws s r s' :
    wf_dict kws -> wf_st s -> ~ In oid (substituted (IExtend oid p f o)) ->
    returns (run (L := L) (IExtend oid p f o) c kws) s r s' ->
    exists po s1 fo s2,
      let cond := get_cond oid s in
      returns (run p c (sub_kwargs (in_ix o) kws)) (set_cond (oid_of f) cond (set_cond (oid_of p) cond s)) po s1 /\
      returns (run f (out_output po) (sub_kwargs (in_ix o) kws)) s1 fo s2 /\
      s' = set_cond (oid_of p) None (set_cond (oid_of f) None s2) /\
      out_lw r = tadd L (out_lw po)
        (logp_sum (kwarg "sample_dims" VNone kws) (kwarg "batch_dim" VNone kws) (fun _ _ => true) (out_trace fo)) /\
      is_union (out_trace po) (out_trace fo) (out_trace r) /\
      out_output r = out_output fo /\
      out_marginal r = Some (dkeys (out_trace po), out_output po) /\
      kernel_ok (is_some cond) po fo /\ out_type r = TyExtend /\ out_trace r = out_trace po ++ out_trace fo /\
      wf_dict (out_trace po) /\ wf_dict (out_trace fo).
  Proof.
    intros Hk Hs Hself H.
    assert (Hcond : get_cond oid s' = get_cond oid s) by (apply run_scoped in H; apply (proj1 H), Hself).
    apply run_extend_returns in H; [|exact Hk|exact Hs].
    destruct H as (po & s1 & fo & s2 & lu & tr & l & _ & _ & Hp & Hf & Es & Hn & Hc & Hd & Hlu & Ht & _ & ->).
    pose proof (wf_sub_kwargs (in_ix o) kws Hk) as Hk'.
    assert (Hwc : forall t, get_cond oid s = Some t -> wf_dict t) by (intros t; apply Hs).
    destruct (run_returns_wf _ _ _ _ _ _ Hk' (wf_set_cond _ _ _ (wf_set_cond _ _ _ Hs Hwc) Hwc) Hp) as [W1 S1].
    destruct (run_returns_wf _ _ _ _ _ _ Hk' S1 Hf) as [W2 S2].
    exists po, s1, fo, s2. cbn zeta. split; [exact Hp|]. split; [exact Hf|]. split; [exact Es|].
    match goal with |- context [add_subs ?d ?sb ?x] => destruct (sd_fields d sb x) as (-> & -> & -> & -> & _ & _ & -> & _) end.
    cbn. rewrite Hcond in *.
    assert (Hd' : disjoint_keys (out_trace po) (out_trace fo)) by (intros k Ha Hb; exact (Hd k Hb Ha)).
    rewrite copytraces_two_disjoint in Ht by assumption. injection Ht as <-.
    assert (Hno : forall a r, In (a, r) (out_trace fo) -> rv_prov r <> OBSERVED).
    { destruct (get_cond oid s) as [t|].
      - apply Hc. discriminate.
      - intros a r0 Hin. destruct (Hn eq_refl) as [_ Hn']. rewrite (Hn' a r0 Hin). discriminate. }
    rewrite (log_joint_all HL _ _ _ _ _ W2 Hno Hlu).
    split; [reflexivity|]. split; [apply is_union_app; exact Hd'|]. do 2 (split; [reflexivity|]).
    split; [|auto]. split; [exact Hno|]. split; [exact Hd'|].
    intros E. destruct (get_cond oid s) as [t|]; [discriminate|].
    destruct (Hn eq_refl) as [Hz Hn']. split; [|exact Hz]. intros a r0 Hin. rewrite (Hn' a r0 Hin). discriminate.
  Qed.

  Lemma clash_split (kws : dict pyval) : clash ["self"; "c"; "fn"] kws = false ->
    clash ["self"; "c"] kws = false /\ clash ["fn"] kws = false.
  Proof.
    intros Hc. unfold clash in *. rewrite <- !not_true_iff_false, !existsb_exists in *. split; intros ([k v] & Hin & Hm).
    - apply Hc. exists (k, v). split; [exact Hin|]. cbn [fst] in *. rewrite mem_In in *. cbn in *. tauto.
    - apply Hc. exists (k, v). split; [exact Hin|]. cbn [fst] in *. rewrite mem_In in *. cbn in *. tauto.
  Qed.

  Lemma extend_runs (HL : lib_laws L) oid p f o c kws s ds1 po s1 ds2 fo s2 :
    wf_dict kws -> wf_st s -> clash ["self"; "c"; "fn"] kws = false ->
    ~ In oid (substituted (IExtend oid p f o)) ->
    let cond := get_cond oid s in
    let s' := set_cond (oid_of p) None (set_cond (oid_of f) None s2) in
    path (run (L := L) p c (sub_kwargs (in_ix o) kws) (set_cond (oid_of f) cond (set_cond (oid_of p) cond s))) ds1 (Ok po, s1) ->
    path (run f (out_output po) (sub_kwargs (in_ix o) kws) s1) ds2 (Ok fo, s2) ->
    (~ kernel_ok (is_some cond) po fo ->
       exists e, path (run (IExtend oid p f o) c kws s) (ds1 ++ ds2) (Err e, s')) /\
    (kernel_ok (is_some cond) po fo ->
     (forall r l, exists l', in_loss o r l = Ok l') ->
     (forall rep pv, lj_ok L (kwarg "reparameterized" (VBool true) kws) rep pv = true) ->
       exists r, path (run (IExtend oid p f o) c kws s) (ds1 ++ ds2) (Ok r, s')).
  Proof.
    intros Hk Hs Hc Hself cond s' H1 H2.
    destruct (clash_split kws Hc) as [Hc1 Hc2].
    pose proof (wf_sub_kwargs (in_ix o) kws Hk) as Hk'.
    assert (Hwc : forall t, cond = Some t -> wf_dict t) by (intros t; apply Hs).
    destruct (run_returns_wf _ _ _ _ _ _ Hk' (wf_set_cond _ _ _ (wf_set_cond _ _ _ Hs Hwc) Hwc) (path_outcome _ _ _ _ H1)) as [W1 S1].
    destruct (run_returns_wf _ _ _ _ _ _ Hk' S1 (path_outcome _ _ _ _ H2)) as [W2 S2].
    assert (Hoc : get_cond oid s' = cond).
    { cbn in Hself.
      assert (N1 : oid <> oid_of p) by (intros E; apply Hself; left; symmetry; exact E).
      assert (N2 : oid <> oid_of f) by (intros E; apply Hself; right; left; symmetry; exact E).
      unfold s'. rewrite !get_set_other by assumption.
      rewrite (proj1 (run_scoped _ _ _ _ _ _ _ (path_outcome _ _ _ _ H2)) oid) by (rewrite in_app_iff in Hself; tauto).
      rewrite (proj1 (run_scoped _ _ _ _ _ _ _ (path_outcome _ _ _ _ H1)) oid) by (rewrite in_app_iff in Hself; tauto).
      rewrite !get_set_other by assumption. reflexivity. }
    pose proof (bind_call_ok kws Hc1) as Hb.
    assert (Hfn : clash ["fn"] (sub_kwargs (in_ix o) kws) = false).
    { rewrite clash_sub_kwargs by (cbn; intuition discriminate). exact Hc2. }
    assert (Hrun : forall x,
      path (mbind (match cond with
               | None =>
                   mbind (lift (eq_zero L (out_lw fo))) (fun z =>
                   mbind (massert z) (fun _ =>
                   massert (forallb (fun kv => negb (is_observed (snd kv) || is_reused (snd kv)))
                                    (out_trace fo))))
               | Some _ =>
                   massert (forallb (fun kv => negb (is_observed (snd kv))) (out_trace fo))
               end) (fun _ =>
        mbind (massert (match sinter (dkeys (out_trace fo)) (dkeys (out_trace po)) with
                        | [] => true | _ => false end)) (fun _ =>
        mbind (lift (log_joint (kwarg "sample_dims" VNone kws) (kwarg "batch_dim" VNone kws)
                               (kwarg "reparameterized" (VBool true) kws) (latent_addrs (out_trace fo))
                               (out_trace fo))) (fun log_u2 =>
        mbind (lift (copytraces no_excl FirstWriteWins [out_trace po; out_trace fo])) (fun tr =>
        let r := mkOut tr (tadd L (out_lw po) log_u2) (out_output fo) TyExtend
                       (Some (resolve_ix (in_ix o) (kwarg "ix" VNone kws))) None
                       (Some (dkeys (out_trace po), out_output po)) None [] in
        mbind (lift (add_loss (in_loss o) (in_loss0 o) po r)) (fun r =>
        ret (add_subs (truthy (kwarg "_debug" (VBool false) kws) || in_debug o) [("p_out", po); ("f_out", fo)] r)))))) s') [] x ->
      path (run (IExtend oid p f o) c kws s) (ds1 ++ ds2) x).
    { intros x Hx. cbn [run]. eapply path_bind_pure; [rewrite Hb; reflexivity|].
      rewrite (sub_kwargs_eq kws _ (in_ix o) Hb).
      eapply path_bind_pure; [reflexivity|].
      rewrite <- (app_nil_r (ds1 ++ ds2)).
      apply (path_bind_ok _ _ _ _ (po, fo) s').
      { apply path_with; [exact Hwc|]. apply path_with; [exact Hwc|].
        eapply path_bind_ok; [apply path_mdispatch; [exact Hk'|exact Hfn|exact H1]|].
        rewrite <- (app_nil_r ds2).
        eapply path_bind_ok; [apply path_mdispatch; [exact Hk'|exact Hfn|exact H2]|]. constructor. }
      eapply path_bind_pure; [reflexivity|]. rewrite Hoc. exact Hx. }
    assert (Hobs : forallb (fun kv => negb (is_observed (snd kv))) (out_trace fo) = true <->
                   forall a r, In (a, r) (out_trace fo) -> rv_prov r <> OBSERVED).
    { rewrite forallb_forall. split.
      - intros H a r Hin E. specialize (H _ Hin). cbn in H. unfold is_observed in H. rewrite E in H. discriminate.
      - intros H [a r] Hin. apply H in Hin. cbn. unfold is_observed. destruct (rv_prov r); [reflexivity|congruence|reflexivity]. }
    assert (Hreu : forallb (fun kv => negb (is_observed (snd kv) || is_reused (snd kv))) (out_trace fo) = true <->
                   (forall a r, In (a, r) (out_trace fo) -> rv_prov r <> OBSERVED) /\
                   (forall a r, In (a, r) (out_trace fo) -> rv_prov r <> REUSED)).
    { rewrite forallb_forall. split.
      - intros H. split; intros a r Hin E; specialize (H _ Hin); cbn in H; unfold is_observed, is_reused in H; rewrite E in H; discriminate.
      - intros [Ha Hb'] [a r] Hin. pose proof (Ha _ _ Hin). pose proof (Hb' _ _ Hin). cbn. unfold is_observed, is_reused.
        destruct (rv_prov r); [reflexivity|congruence|congruence]. }
    assert (Hint : (match sinter (dkeys (out_trace fo)) (dkeys (out_trace po)) with [] => true | _ => false end) = true <->
                   disjoint_keys (out_trace po) (out_trace fo)).
    { split.
      - intros H k Ha Hb'. destruct (sinter (dkeys (out_trace fo)) (dkeys (out_trace po))) eqn:E; [|discriminate].
        apply sinter_nil with (k := k) in E; [contradiction|exact Hb'].
      - intros H. assert (E : sinter (dkeys (out_trace fo)) (dkeys (out_trace po)) = []).
        { apply sinter_nil. intros k Ha Hb'. exact (H k Hb' Ha). }
        rewrite E. reflexivity. }
    split.
    - intros Hnk.
      destruct (match sinter (dkeys (out_trace fo)) (dkeys (out_trace po)) with [] => true | _ => false end) eqn:Ei.
      + (* disjoint: the first check fails *)
        assert (Hex : exists e, (match cond with
               | None =>
                   mbind (lift (eq_zero L (out_lw fo))) (fun z =>
                   mbind (massert z) (fun _ =>
                   massert (forallb (fun kv => negb (is_observed (snd kv) || is_reused (snd kv)))
                                    (out_trace fo))))
               | Some _ =>
                   massert (forallb (fun kv => negb (is_observed (snd kv))) (out_trace fo))
               end) s' = Leaf (Err e, s')).
        { destruct cond as [t|] eqn:Ecd.
          - exists AssertionError. unfold massert.
            destruct (forallb (fun kv => negb (is_observed (snd kv))) (out_trace fo)) eqn:Eo; [|reflexivity].
            exfalso. apply Hnk. split; [apply Hobs; reflexivity|]. split; [apply Hint; reflexivity|discriminate].
          - unfold mbind, lift, massert. cbn [tbind].
            destruct (eq_zero L (out_lw fo)) as [z|e] eqn:Ez; cbn [tbind fst snd]; [|exists e; reflexivity].
            exists AssertionError. destruct z; [|reflexivity]. cbn [ret tbind fst snd].
            destruct (forallb _ (out_trace fo)) eqn:Eo; [|reflexivity].
            exfalso. apply Hnk. split; [apply Hreu; reflexivity|]. split; [apply Hint; reflexivity|].
            intros _. split; [apply Hreu; reflexivity|exact Ez]. }
        destruct Hex as [e He]. exists e. apply Hrun. apply path_bind_pure_err. exact He.
      + (* overlap: whichever check fails first *)
        destruct ((match cond with
               | None =>
                   mbind (lift (eq_zero L (out_lw fo))) (fun z =>
                   mbind (massert z) (fun _ =>
                   massert (forallb (fun kv => negb (is_observed (snd kv) || is_reused (snd kv)))
                                    (out_trace fo))))
               | Some _ =>
                   massert (forallb (fun kv => negb (is_observed (snd kv))) (out_trace fo))
               end) s') as [[[u|e] s'']|d k] eqn:Em.
        * assert (s'' = s').
          { destruct cond; unfold massert, mbind, lift in Em; cbn [tbind fst snd] in Em.
            - destruct (forallb _ (out_trace fo)); injection Em; auto; discriminate.
            - destruct (eq_zero L (out_lw fo)) as [[|]|]; cbn [tbind fst snd ret raise] in Em; try discriminate.
              destruct (forallb _ (out_trace fo)); cbn [ret raise] in Em; injection Em; auto; discriminate. }
          subst s''. exists AssertionError. apply Hrun. eapply path_bind_pure; [exact Em|].
          apply path_bind_pure_err. reflexivity.
        * assert (s'' = s').
          { destruct cond; unfold massert, mbind, lift in Em; cbn [tbind fst snd] in Em.
            - destruct (forallb _ (out_trace fo)); injection Em; auto; discriminate.
            - destruct (eq_zero L (out_lw fo)) as [[|]|]; cbn [tbind fst snd ret raise] in Em; try (injection Em; auto; discriminate).
              destruct (forallb _ (out_trace fo)); cbn [ret raise] in Em; injection Em; auto; discriminate. }
          subst s''. exists e. apply Hrun. eapply path_bind_pure_err. exact Em.
        * exfalso. destruct cond; unfold massert, mbind, lift in Em; cbn [tbind fst snd] in Em.
          -- destruct (forallb _ (out_trace fo)); discriminate.
          -- destruct (eq_zero L (out_lw fo)) as [[|]|]; cbn [tbind fst snd ret raise] in Em; try discriminate.
             destruct (forallb _ (out_trace fo)); discriminate.
    - intros (Ko & Kd & Kc) Hl Hlj.
      destruct (log_joint (kwarg "sample_dims" VNone kws) (kwarg "batch_dim" VNone kws)
                 (kwarg "reparameterized" (VBool true) kws) (latent_addrs (out_trace fo)) (out_trace fo)) as [lu|e] eqn:Elu.
      2:{ apply log_joint_err in Elu; [|exact HL]. destruct Elu as (_ & n & r & _ & _ & E). rewrite Hlj in E. discriminate. }
      destruct (Hl (mkOut (out_trace po ++ out_trace fo) (tadd L (out_lw po) lu) (out_output fo) TyExtend
                  (Some (resolve_ix (in_ix o) (kwarg "ix" VNone kws))) None (Some (dkeys (out_trace po), out_output po)) None [])
        (match out_loss po with Some l => l | None => match in_loss0 o with Some l => l | None => tzero L end end)) as [l El].
      eexists. apply Hrun.
      eapply (path_bind_pure _ _ _ tt s').
      { destruct cond as [t|].
        - rewrite (proj2 Hobs Ko). reflexivity.
        - destruct (Kc eq_refl) as [Kr Kz]. rewrite Kz. unfold mbind, lift. cbn [tbind fst snd massert ret].
          rewrite (proj2 Hreu (conj Ko Kr)). reflexivity. }
      eapply path_bind_pure; [rewrite (proj2 Hint Kd); reflexivity|].
      eapply path_bind_pure; [reflexivity|].
      eapply path_bind_pure; [rewrite copytraces_two_disjoint by assumption; reflexivity|].
      eapply path_bind_pure; [unfold add_loss; rewrite El; reflexivity|]. constructor.
  Qed.
End ThmCombinators.
