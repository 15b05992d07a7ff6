(** Proofs of C01-C04. *)
From Verif Require Export RunInv Instances.

Section ThmProgram.
  Context (L : lib).

  Lemma path_outcome {A} (t : stree L A) ds a : path t ds a -> outcome t a.
  Proof. induction 1; econstructor; eassumption. Qed.
  Lemma outcome_path {A} (t : stree L A) a : outcome t a -> exists ds, path t ds a.
  Proof.
    induction 1 as [a|d k v a H [ds IH]]; [exists []; constructor|]. exists ((d, v) :: ds). constructor. exact IH.
  Qed.
  Lemma path_tbind {A B} (t : stree L A) (f : A -> stree L B) ds b :
    path (tbind t f) ds b <-> exists ds1 a ds2, path t ds1 a /\ path (f a) ds2 b /\ ds = ds1 ++ ds2.
  Proof.
    split.
    - revert ds. induction t as [a|d k IH]; cbn; intros ds H.
      + exists [], a, ds. split; [constructor|]. split; [exact H|reflexivity].
      + inversion H as [|? ? v ds' ? H']; subst. destruct (IH v _ H') as (ds1 & a & ds2 & H1 & H2 & ->).
        exists ((d, v) :: ds1), a, ds2. split; [constructor; exact H1|]. split; [exact H2|reflexivity].
    - intros (ds1 & a & ds2 & H1 & H2 & ->). induction H1; cbn; [exact H2|]. constructor. auto.
  Qed.
  Lemma path_leaf_inv {A} (a b : A) ds : path (L := L) (Leaf a) ds b -> ds = [] /\ a = b.
  Proof. intros H. inversion H; subst. auto. Qed.

  Lemma forward_weight (HL : lib_laws L) oid sg m c kws s o s' :
    wf_st s -> returns (forward (L := L) oid sg m c kws) s o s' ->
    wf_dict (out_trace o) /\
    out_lw o = logp_sum (kwarg "sample_dims" VNone kws) (kwarg "batch_dim" VNone kws)
                 (fun a r => is_observed r || latent_in_opt (get_cond oid s) a) (out_trace o).
  Proof.
    intros Hst H. apply forward_returns in H.
    destruct H as (k' & ou & tr & lw & s1 & _ & _ & _ & _ & _ & Hwf & Hlj & ->). cbn [out_trace out_lw].
    split; [exact Hwf|]. apply log_joint_sum in Hlj; [|exact HL|exact Hwf|apply NoDup_sdiff, Hwf].
    rewrite Hlj. apply logp_sum_ext. intros a r Hin.
    assert (Hg : dget a tr = Some r) by (apply In_dget; assumption).
    assert (Hc : forall l, In a l <-> mem a l = true) by (intros l; symmetry; apply mem_In).
    assert (Hcond : mem a (match get_cond oid s with Some ct => latent_addrs ct | None => [] end)
                    = latent_in_opt (get_cond oid s) a).
    { destruct (get_cond oid s) as [ct|] eqn:Ec; [|reflexivity]. cbn.
      apply Bool.eq_iff_eq_true. rewrite <- Hc. apply In_latent_addrs. eapply Hst; exact Ec. }
    assert (Hlat : mem a (latent_addrs tr) = negb (is_observed r)).
    { apply Bool.eq_iff_eq_true. rewrite <- Hc, In_latent_addrs by exact Hwf.
      unfold latent_in. rewrite Hg. reflexivity. }
    apply Bool.eq_iff_eq_true. rewrite <- Hc, !In_sdiff, !Hc, Hcond, Hlat.
    assert (Hk : mem a (dkeys tr) = true) by (apply mem_In; eapply dget_In_keys; exact Hg).
    rewrite Hk. destruct (is_observed r), (latent_in_opt (get_cond oid s) a); cbn; intuition congruence.
  Qed.

  Lemma logp_sum_none sd bd P (tr : trace L) :
    (forall a r, In (a, r) tr -> P a r = false) -> logp_sum sd bd P tr = tzero L.
  Proof.
    intros H. unfold logp_sum. induction tr as [|[a r] tr IH]; [reflexivity|]. cbn.
    rewrite (H a r) by (left; reflexivity). apply IH. intros b r' Hin. apply H. right; exact Hin.
  Qed.

  Lemma forward_unconditioned (HL : lib_laws L) oid sg m c kws s o s' :
    get_cond oid s = None -> returns (forward (L := L) oid sg m c kws) s o s' ->
    out_lw o = logp_sum (kwarg "sample_dims" VNone kws) (kwarg "batch_dim" VNone kws)
                 (fun _ r => is_observed r) (out_trace o) /\
    ((forall a r, In (a, r) (out_trace o) -> rv_prov r <> OBSERVED) -> out_lw o = tzero L).
  Proof.
    intros Hc H.
    assert (E : out_lw o = logp_sum (kwarg "sample_dims" VNone kws) (kwarg "batch_dim" VNone kws)
                 (fun _ r => is_observed r) (out_trace o)).
    { apply forward_returns in H.
      destruct H as (k' & ou & tr & lw & s1 & _ & _ & _ & _ & _ & Hwf & Hlj & ->). cbn [out_trace out_lw].
      apply log_joint_sum in Hlj; [|exact HL|exact Hwf|apply NoDup_sdiff, Hwf].
      rewrite Hlj. apply logp_sum_ext. intros a r Hin. rewrite Hc.
      assert (Hg : dget a tr = Some r) by (apply In_dget; assumption).
      apply Bool.eq_iff_eq_true. rewrite mem_In, !In_sdiff, In_latent_addrs by exact Hwf.
      assert (Hk : In a (dkeys tr)) by (eapply dget_In_keys; exact Hg).
      unfold latent_in. rewrite Hg. cbn. destruct (is_observed r); cbn; intuition congruence. }
    split; [exact E|]. intros Hno. rewrite E. apply logp_sum_none. intros a r Hin.
    apply Hno in Hin. unfold is_observed. destruct (rv_prov r); [reflexivity|congruence|reflexivity].
  Qed.

  Lemma forward_full_substitution (HL : lib_laws L) oid sg m c kws s o s' :
    wf_st s -> returns (forward (L := L) oid sg m c kws) s o s' ->
    (forall a, latent_in (out_trace o) a = true -> latent_in_opt (get_cond oid s) a = true) ->
    out_lw o = logp_sum (kwarg "sample_dims" VNone kws) (kwarg "batch_dim" VNone kws)
                 (fun _ _ => true) (out_trace o).
  Proof.
    intros Hst H Hall. destruct (forward_weight HL _ _ _ _ _ _ _ _ Hst H) as [Hwf E].
    rewrite E. apply logp_sum_ext. intros a r Hin.
    destruct (is_observed r) eqn:Eo; [reflexivity|]. cbn. apply Hall.
    unfold latent_in. rewrite (In_dget a r) by assumption. rewrite Eo. reflexivity.
  Qed.

  (** returning is only prevented by the user's model or by probtorch's own check *)
  Lemma forward_total oid sg m c kws s r s' (HL : lib_laws L) :
    outcome (forward (L := L) oid sg m c kws s) (r, s') ->
    match r with
    | Ok _ => True
    | Err e =>
        (e = TypeError /\ s' = s /\
           exists k, In k (["sample_dims"; "batch_dim"; "reparameterized"] ++ dkeys kws) /\
                     (k = "self" \/ In k (firstn 3 (s_args sg)))) \/
        (exists kws' s1, outcome (exec (get_cond oid s) (m c kws') [] s1) (Err e, s')) \/
        (e = ValueError /\ exists kws' s1 out tr n nd,
           outcome (exec (get_cond oid s) (m c kws') [] s1) (Ok (out, tr), s') /\ dget n tr = Some nd /\
           lj_ok L (kwarg "reparameterized" (VBool true) kws) (rv_rep nd) (rv_prov nd) = false)
    end.
  Proof.
    unfold forward. destruct (clash ["self"] kws || _) eqn:Ecl.
    - intros H. apply outcome_leaf in H. injection H as <- <-. left. split; [reflexivity|]. split; [reflexivity|].
      apply orb_true_iff in Ecl. destruct Ecl as [Ecl|Ecl].
      + unfold clash in Ecl. apply existsb_exists in Ecl. destruct Ecl as ([k v] & Hin & Hm). cbn [fst] in Hm.
        apply mem_In in Hm. destruct Hm as [<-|[]]. exists "self". split; [|left; reflexivity].
        apply in_or_app. right. apply in_map_iff. exists ("self", v). auto.
      + unfold clash in Ecl. apply existsb_exists in Ecl. destruct Ecl as ([k v] & Hin & Hm). cbn [fst] in Hm.
        exists k. split; [|right; apply mem_In, Hm]. apply filter_In in Hin. destruct Hin as [Hin _].
        assert (Hk : In k (dkeys (dmerge [("sample_dims", kwarg "sample_dims" VNone kws); ("batch_dim", kwarg "batch_dim" VNone kws);
                 ("reparameterized", kwarg "reparameterized" (VBool true) kws)]
                (filter (fun kv => negb (mem (fst kv) ["sample_dims"; "batch_dim"; "reparameterized"])) kws)))).
        { apply in_map_iff. exists (k, v). auto. }
        apply In_dkeys_dmerge in Hk. apply in_or_app. destruct Hk as [Hk|Hk]; [left; exact Hk|right].
        apply in_map_iff in Hk. destruct Hk as ([k' v'] & <- & Hk). apply filter_In in Hk.
        apply in_map_iff. exists (k', v'). tauto.
    - set (passed := filter _ _). intros H. destruct r as [o|e]; [exact I|].
      apply outcome_mbind in H. destruct H as [(s0 & s1 & H1 & H)|(e' & E & H1)].
      2:{ apply outcome_leaf in H1. discriminate. }
      apply ret_get in H1. destruct H1 as [-> ->].
      apply outcome_mbind in H. destruct H as [(u & s2 & H1 & H)|(e' & E & H1)].
      2:{ apply outcome_leaf in H1. discriminate. }
      apply ret_modify in H1. subst s2.
      apply outcome_mbind in H. destruct H as [([out tr] & s3 & H1 & H)|(e' & E & H1)].
      + right. right.
        apply outcome_mbind in H. destruct H as [(lw & s4 & H2 & H)|(e' & E & H2)].
        * apply outcome_leaf in H. discriminate.
        * injection E as <-. apply outcome_leaf in H2. injection H2 as H2 <-.
          apply log_joint_err in H2; [|exact HL]. destruct H2 as (-> & n & nd & _ & Hn & Hlj).
          split; [reflexivity|]. exists passed, (log_call (mkCall oid c passed (get_cond oid s)) s), out, tr, n, nd. auto.
      + injection E as <-. right. left. exists passed, (log_call (mkCall oid c passed (get_cond oid s)) s). exact H1.
  Qed.

  (** C03 *)
  Lemma sampled_draws_app (a b : trace L) : sampled_draws (a ++ b) = sampled_draws a ++ sampled_draws b.
  Proof. unfold sampled_draws. rewrite filter_app, map_app. reflexivity. Qed.

  Lemma exec_plain cond m0 m : plain m ->
    (forall a d v rep, says m a d v rep -> says m0 a d v rep) ->
    forall tr s ds o tr' s',
    wf_dict tr ->
    path (exec (L := L) cond m tr s) ds (Ok (o, tr'), s') ->
    exists new, tr' = tr ++ new /\ wf_dict tr' /\ ds = sampled_draws new /\
      forall a r, In (a, r) new -> node_explained cond m0 a r.
  Proof.
    induction 1 as [o0|e|a d v rep k Hk IH|k Hk IH|k Hk IH|key k Hk IH|key w k Hk IH];
      intros Hs tr s ds o tr' s' Hwf H; cbn [exec] in H.
    - apply path_leaf_inv in H. destruct H as [-> H]. injection H as <- <- <-.
      exists []. rewrite app_nil_r. split; [reflexivity|]. split; [exact Hwf|]. split; [reflexivity|]. intros ? ? [].
    - apply path_leaf_inv in H. destruct H as [_ H]. discriminate.
    - assert (Hfin : forall x p s0 ds0,
        path (mbind (lift (add_node a (mkRV (Proper d) x (logp L d x) p rep true) tr))
                (fun tr1 => exec cond (k x) tr1) s0) ds0 (Ok (o, tr'), s') ->
        (match v with
         | Some y => p = OBSERVED /\ x = y
         | None => match value_in cond a with Some y => p = REUSED /\ x = y | None => p = SAMPLED end
         end) ->
        exists new, tr' = tr ++ new /\ wf_dict tr' /\
          (if prov_eqb p SAMPLED then (DrawDist d rep VNone, x) :: ds0 else ds0) = sampled_draws new /\
          forall a r, In (a, r) new -> node_explained cond m0 a r).
      { intros x p s0 ds0 H0 Hp. unfold mbind in H0. apply path_tbind in H0.
        destruct H0 as (ds1 & [[tr1|e] s1] & ds2 & H1 & H2 & ->); unfold lift in H1;
          apply path_leaf_inv in H1; destruct H1 as [-> H1].
        - injection H1 as H1 <-. cbn [fst snd app] in *. apply add_node_wf in H1; [|exact Hwf].
          destruct H1 as (Hwf1 & _ & ->).
          destruct (IH x (fun a' d' v' rep' H' => Hs _ _ _ _ (says_var _ _ _ _ _ _ _ _ _ _ H')) _ _ _ _ _ _ Hwf1 H2)
            as (new & -> & Hwf2 & -> & Hn).
          exists ((a, mkRV (Proper d) x (logp L d x) p rep true) :: new).
          split; [rewrite <- app_assoc; reflexivity|]. split; [exact Hwf2|].
          split; [unfold sampled_draws; cbn; destruct p; reflexivity|].
          intros a' r [E|Hin]; [|apply Hn, Hin]. injection E as <- <-.
          exists d, v, rep. split; [apply Hs; constructor|]. cbn. do 3 (split; [reflexivity|]). exact Hp.
        - cbn [fst snd] in H2. apply path_leaf_inv in H2. destruct H2 as [_ H2]. discriminate. }
      destruct v as [x|]; cbn [option_map] in H.
      + destruct (Hfin _ _ _ _ H ltac:(auto)) as (new & H1 & H2 & H3 & H4). exists new. auto.
      + destruct (match cond with Some ct => dget a ct | None => None end) as [r1|] eqn:Ec.
        * assert (Ev : value_in cond a = Some (rv_value r1)).
          { unfold value_in. destruct cond as [ct|]; [|discriminate]. rewrite Ec. reflexivity. }
          destruct (Hfin (rv_value r1) REUSED _ _ H) as (new & H1 & H2 & H3 & H4); [rewrite Ev; auto|]. exists new. auto.
        * assert (Ev : value_in cond a = None).
          { unfold value_in. destruct cond as [ct|]; [|reflexivity]. rewrite Ec. reflexivity. }
          inversion H as [|? ? x ds' ? H']; subst.
          destruct (Hfin x SAMPLED _ _ H') as (new & H1 & H2 & H3 & H4); [rewrite Ev; reflexivity|]. exists new. auto.
    - apply (IH cond (fun a' d' v' rep' H' => Hs _ _ _ _ (says_cond _ _ _ _ _ _ H')) _ _ _ _ _ _ Hwf H).
    - apply (IH tr (fun a' d' v' rep' H' => Hs _ _ _ _ (says_trace _ _ _ _ _ _ H')) _ _ _ _ _ _ Hwf H).
    - apply (IH _ (fun a' d' v' rep' H' => Hs _ _ _ _ (says_get _ _ _ _ _ _ _ H')) _ _ _ _ _ _ Hwf H).
    - apply (IH (fun a' d' v' rep' H' => Hs _ _ _ _ (says_set _ _ _ _ _ _ _ H')) _ _ _ _ _ _ Hwf H).
  Qed.

  Lemma forward_plain oid sg (m : pyval (T L) -> dict (pyval (T L)) -> model L) c kws s ds o s' :
    (forall c kws, plain (m c kws)) ->
    path (forward oid sg m c kws s) ds (Ok o, s') ->
    exists kws', ds = sampled_draws (out_trace o) /\
      forall a r, In (a, r) (out_trace o) -> node_explained (get_cond oid s) (m c kws') a r.
  Proof.
    intros Hp H. unfold forward in H. destruct (clash ["self"] kws || _).
    - apply path_leaf_inv in H. destruct H as [_ H]. discriminate.
    - set (passed := filter _ _) in H.
      unfold mbind, get, modify, lift, ret in H. cbn [tbind fst snd] in H.
      apply path_tbind in H. destruct H as (ds1 & [[[ou tr]|e] s1] & ds2 & H1 & H2 & ->).
      2:{ cbn in H2. apply path_leaf_inv in H2. destruct H2 as [_ H2]. discriminate. }
      cbn [fst snd] in H2.
      destruct (log_joint _ _ _ _ tr) as [lw|e]; cbn [tbind fst snd] in H2; apply path_leaf_inv in H2; destruct H2 as [-> H2]; [|discriminate].
      injection H2 as <- <-. rewrite app_nil_r. cbn [out_trace].
      exists passed. eapply (exec_plain _ (m c passed)) in H1; [|apply Hp|tauto|apply wf_nil].
      destruct H1 as (new & -> & _ & -> & Hn). cbn [app]. split; [reflexivity|]. exact Hn.
  Qed.

  Lemma forward_provenance oid sg (m : pyval (T L) -> dict (pyval (T L)) -> model L) c kws s o s' :
    (forall c kws, plain (m c kws)) ->
    returns (forward oid sg m c kws) s o s' ->
    forall a r, In (a, r) (out_trace o) ->
      match rv_prov r with
      | OBSERVED => True
      | REUSED => value_in (get_cond oid s) a = Some (rv_value r)
      | SAMPLED => value_in (get_cond oid s) a = None
      end.
  Proof.
    intros Hp H a r Hin. apply outcome_path in H. destruct H as [ds H].
    apply forward_plain in H; [|exact Hp]. destruct H as (kws' & _ & H).
    destruct (H a r Hin) as (d & v & rep & _ & _ & _ & _ & Hv). destruct v as [x|].
    - destruct Hv as [-> _]. exact I.
    - destruct (value_in (get_cond oid s) a) as [x|]; [destruct Hv as [-> ->]|rewrite Hv]; reflexivity.
  Qed.
  Lemma forward_not_reused oid sg (m : pyval (T L) -> dict (pyval (T L)) -> model L) c kws s o s' :
    (forall c kws, plain (m c kws)) -> get_cond oid s = None ->
    returns (forward oid sg m c kws) s o s' ->
    forall a r, In (a, r) (out_trace o) -> rv_prov r <> REUSED.
  Proof.
    intros Hp Hc H a r Hin E. pose proof (forward_provenance _ _ _ _ _ _ _ _ Hp H a r Hin) as Hx.
    rewrite E, Hc in Hx. discriminate.
  Qed.
End ThmProgram.
