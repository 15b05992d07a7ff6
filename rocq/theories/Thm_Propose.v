(** Proofs of C09-C13, C40. *)
From Verif Require Export Thm_Combinators.

Section ThmPropose.
  Context (L : lib).
  Notation pyval := (pyval (T L)).

  Lemma rerun_spec_ok (tr tr' : trace L) :
    wf_dict tr -> rerun_with_detached_values tr = Ok tr' -> detached_rerun tr tr'.
  Proof.
    intros Hwf H. destruct (rerun_spec L tr Hwf) as [H1 H2].
    destruct (existsb (fun ar : string * rv L => match rv_den (snd ar) with OtherRV => true | _ => false end) tr) eqn:E.
    - apply existsb_exists in E. destruct E as ([a r] & Hin & Hn).
      rewrite H2 in H; [discriminate|]. exists a, r. split; [exact Hin|]. cbn in Hn. destruct (rv_den r); [discriminate|discriminate|reflexivity].
    - destruct H1 as (tr'' & E' & HF).
      { intros a r Hin Ed. apply not_true_iff_false in E. apply E. apply existsb_exists. exists (a, r).
        split; [exact Hin|]. cbn. rewrite Ed. reflexivity. }
      rewrite H in E'. injection E' as <-. exact HF.
  Qed.

  Lemma nodes_charged (qt pt : trace L) a :
    wf_dict qt -> wf_dict pt ->
    mem a (sdiff (dkeys qt) (sdiff (latent_addrs qt) (latent_addrs pt))) = charged qt pt a.
  Proof.
    intros Hq Hp. apply Bool.eq_iff_eq_true. rewrite mem_In, !In_sdiff, !In_latent_addrs by assumption.
    unfold charged. unfold latent_in at 1. rewrite In_dkeys.
    destruct (dget a qt) as [r|].
    - destruct (is_observed r), (latent_in pt a); cbn; split; intros H; try reflexivity; try discriminate;
        try (split; [eexists; reflexivity|intuition congruence]).
      exfalso. apply (proj2 H). split; [reflexivity|discriminate].
    - split; [intros [[v E] _]; discriminate|discriminate].
  Qed.

  Lemma propose_law (HL : lib_laws L) oid p q o tf nr c kws s r s' :
    wf_dict kws -> wf_st s ->
    returns (run (L := L) (IPropose oid p q o tf nr) c kws) s r s' ->
    exists qo s1 po s2 qt px mt mo,
      let sd := kwarg "sample_dims" VNone kws in
      let bd := kwarg "batch_dim" VNone kws in
      returns (run q c (sub_kwargs (in_ix o) kws)) s qo s1 /\
      returns (run p c (sub_kwargs (in_ix o) kws)) (set_cond (oid_of p) (Some (out_trace qo)) s1) po s2 /\
      s' = set_cond (oid_of p) None s2 /\
      wf_dict (out_trace qo) /\ wf_dict (out_trace po) /\ wf_st s1 /\
      apply_transf tf (out_trace qo) (firstn 5 (sub_kwargs (in_ix o) kws)) = Ok qt /\
      out_px r = Some px /\
      px_lv px = tsub L (out_lw po) (logp_sum sd bd (fun a _ => charged (out_trace qo) (out_trace po) a) qt) /\
      out_lw r = detach L (tadd L (out_lw qo) (px_lv px)) /\
      px_lw px = (if is_tensor L (out_lw qo) then detach L (out_lw qo) else to_tensor L (out_lw qo)) /\
      px_proposal_trace px = out_trace qo /\ px_target_trace px = out_trace po /\
      (forall a, In a (px_nodes px) <-> charged (out_trace qo) (out_trace po) a = true) /\
      target_part p po mt mo /\ wf_dict mt /\
      out_output r = detach_output mo /\
      (if nr then out_trace r = mt else detached_rerun mt (out_trace r)) /\
      forward_trace q qo = Ok (px_forward_trace px) /\ is_compose p = false.
  Proof.
    intros Hk Hs H. pose proof (wf_sub_kwargs (in_ix o) kws Hk) as Hk'.
    apply run_propose_returns in H; [|exact Hk|].
    2:{ intros qo s1 Hq. exact (proj1 (run_returns_wf _ _ _ _ _ _ Hk' Hs Hq)). }
    destruct H as (qo & s1 & po & s2 & qt & lu & mo & mt & tr & pt & tt' & fw & l & Hcp & _ & _ & Hq & Hp & Es & Htf & Hlu & Hm & Htr & _ & Hpt & Htt & Hfw & _ & ->).
    destruct (run_returns_wf _ _ _ _ _ _ Hk' Hs Hq) as [Wq S1].
    assert (Hwq : forall t, Some (out_trace qo) = Some t -> wf_dict t) by (intros t [= <-]; exact Wq).
    destruct (run_returns_wf _ _ _ _ _ _ Hk' (wf_set_cond _ _ _ S1 Hwq) Hp) as [Wp S2].
    rewrite copytraces_one in Hpt by exact Wq. injection Hpt as <-.
    rewrite copytraces_one in Htt by exact Wp. injection Htt as <-.
    assert (Wqt : wf_dict qt).
    { unfold apply_transf in Htf. destruct tf as [f|]; [|injection Htf as <-; exact Wq].
      destruct (tf_call f _ _) as [items|e]; cbn in Htf; [|discriminate]. injection Htf as <-. apply as_trace_wf. }
    eapply log_joint_sum in Hlu; [|exact HL|exact Wqt|apply NoDup_sdiff, Wq].
    assert (Hmp : target_part p po mt mo /\ wf_dict mt).
    { unfold marginalize in Hm.
      destruct p as [pi sg m|pi q0 ix l0 rs dbg|pi p' f' o'|pi q2 q1 o'|pi p' q' o' tf' nr']; cbn [is_extend] in Hm;
        try (injection Hm as <- <-; cbn; repeat split; assumption).
      destruct (out_marginal po) as [[mk mo']|] eqn:Em; [|discriminate].
      rewrite copytraces_filter in Hm by exact Wp. cbn in Hm. injection Hm as <- <-.
      split; [|apply wf_filter, Wp]. exists mk. split; [exact Em|].
      apply filter_ext_in. intros [a r0] Hin. unfold keep. cbn [fst].
      apply Bool.eq_iff_eq_true. rewrite negb_true_iff, mem_not_In, In_sdiff, mem_In.
      assert (Ha : In a (dkeys (out_trace po))) by (apply in_map_iff; exists (a, r0); auto).
      destruct (in_dec string_dec a mk); intuition. }
    destruct Hmp as [Hmp Wm].
    set (px := mkPX (sdiff (dkeys (out_trace qo)) (sdiff (latent_addrs (out_trace qo)) (latent_addrs (out_trace po))))
                 (tsub L (out_lw po) lu) (if is_tensor L (out_lw qo) then detach L (out_lw qo) else to_tensor L (out_lw qo))
                 (out_trace qo) (out_trace po) fw).
    exists qo, s1, po, s2, qt, px, mt, mo. cbn zeta.
    split; [exact Hq|]. split; [exact Hp|]. split; [exact Es|]. split; [exact Wq|]. split; [exact Wp|]. split; [exact S1|].
    split; [exact Htf|].
    match goal with |- context [add_subs ?d ?sb ?x] => destruct (sd_fields L d sb x) as (-> & -> & -> & _ & _ & _ & _ & ->) end.
    cbn [with_loss out_px out_lw out_output out_trace].
    split; [reflexivity|]. split.
    { cbn. f_equal. rewrite Hlu. apply logp_sum_ext. intros a r _. apply nodes_charged; assumption. }
    do 4 (split; [reflexivity|]).
    split. { intros a. cbn [px_nodes px]. rewrite <- mem_In, nodes_charged by assumption. reflexivity. }
    split; [exact Hmp|]. split; [exact Wm|]. split; [reflexivity|].
    split; [|split; [exact Hfw|exact Hcp]]. destruct nr; [injection Htr as <-; reflexivity|].
    apply rerun_spec_ok; assumption.
  Qed.

  (** C09 *)
  Lemma propose_weight (HL : lib_laws L) oid p q o nr c kws s r s' :
    wf_dict kws -> wf_st s ->
    returns (run (L := L) (IPropose oid p q o None nr) c kws) s r s' ->
    exists qo s1 po s2,
      returns (run q c (sub_kwargs (in_ix o) kws)) s qo s1 /\
      returns (run p c (sub_kwargs (in_ix o) kws)) (set_cond (oid_of p) (Some (out_trace qo)) s1) po s2 /\
      s' = set_cond (oid_of p) None s2 /\
      out_lw r = detach L (tadd L (out_lw qo) (tsub L (out_lw po)
        (logp_sum (kwarg "sample_dims" VNone kws) (kwarg "batch_dim" VNone kws)
           (fun a v => is_observed v || latent_in (out_trace po) a) (out_trace qo)))).
  Proof.
    intros Hk Hs H. apply propose_law in H; [|exact HL|exact Hk|exact Hs].
    destruct H as (qo & s1 & po & s2 & qt & px & mt & mo & Hq & Hp & Es & Wq & Wp & S1 & Ht & Hpx & Hlv & Hlw & _).
    exists qo, s1, po, s2. split; [exact Hq|]. split; [exact Hp|]. split; [exact Es|].
    rewrite Hlw, Hlv. injection Ht as <-. do 3 f_equal. apply logp_sum_ext. intros a v Hin.
    unfold charged. rewrite (In_dget a v) by assumption. reflexivity.
  Qed.

  (** C10 *)
  Lemma propose_importance (HL : lib_laws L) oid pid sg m q o nr c kws s r s' :
    wf_dict kws -> wf_st s ->
    returns (run (L := L) (IPropose oid (IProg pid sg m) q o None nr) c kws) s r s' ->
    exists qo s1 po s2 px,
      returns (run q c (sub_kwargs (in_ix o) kws)) s qo s1 /\
      returns (run (IProg pid sg m) c (sub_kwargs (in_ix o) kws)) (set_cond pid (Some (out_trace qo)) s1) po s2 /\
      out_px r = Some px /\
      ((forall a, latent_in (out_trace po) a = true -> latent_in (out_trace qo) a = true) ->
       px_lv px = tsub L
         (logp_sum (kwarg "sample_dims" VNone kws) (kwarg "batch_dim" VNone kws) (fun _ _ => true) (out_trace po))
         (logp_sum (kwarg "sample_dims" VNone kws) (kwarg "batch_dim" VNone kws)
            (fun a v => is_observed v || latent_in (out_trace po) a) (out_trace qo))).
  Proof.
    intros Hk Hs H. apply propose_law in H; [|exact HL|exact Hk|exact Hs].
    destruct H as (qo & s1 & po & s2 & qt & px & mt & mo & Hq & Hp & Es & Wq & Wp & S1 & Ht & Hpx & Hlv & _).
    exists qo, s1, po, s2, px. split; [exact Hq|]. split; [exact Hp|]. split; [exact Hpx|].
    intros Hcov. rewrite Hlv. injection Ht as <-. f_equal.
    - assert (Hwq : forall t, Some (out_trace qo) = Some t -> wf_dict t) by (intros t [= <-]; exact Wq).
      rewrite (forward_full_substitution L HL _ _ _ _ _ _ _ _ (wf_set_cond _ _ _ S1 Hwq) Hp).
      + unfold sub_kwargs. reflexivity.
      + cbn [oid_of]. rewrite get_set_same. exact Hcov.
    - apply logp_sum_ext. intros a v Hin. unfold charged. rewrite (In_dget a v) by assumption. reflexivity.
  Qed.

  (** C11 *)
  Lemma propose_target (HL : lib_laws L) oid p q o tf nr c kws s r s' :
    wf_dict kws -> wf_st s -> is_extend p = false ->
    returns (run (L := L) (IPropose oid p q o tf nr) c kws) s r s' ->
    exists qo s1 po s2,
      returns (run q c (sub_kwargs (in_ix o) kws)) s qo s1 /\
      returns (run p c (sub_kwargs (in_ix o) kws)) (set_cond (oid_of p) (Some (out_trace qo)) s1) po s2 /\
      (if nr then out_trace r = out_trace po else detached_rerun (out_trace po) (out_trace r)) /\
      out_output r = detach_output (out_output po).
  Proof.
    intros Hk Hs Hp0 H. apply propose_law in H; [|exact HL|exact Hk|exact Hs].
    destruct H as (qo & s1 & po & s2 & qt & px & mt & mo & Hq & Hp & Es & Wq & Wp & S1 & Ht & Hpx & Hlv & _ & _ & _ & _ & _ & Htp & _ & Ho & Htr & _).
    exists qo, s1, po, s2. split; [exact Hq|]. split; [exact Hp|].
    assert (E : mt = out_trace po /\ mo = out_output po) by (destruct p; try discriminate; exact Htp).
    destruct E as [-> ->]. split; [exact Htr|exact Ho].
  Qed.

  Lemma filter_keys_app (a b : trace L) : disjoint_keys a b ->
    filter (fun ar => mem (fst ar) (dkeys a)) (a ++ b) = a.
  Proof.
    intros Hd. rewrite filter_app.
    assert (Ea : filter (fun ar : string * rv L => mem (fst ar) (dkeys a)) a = a).
    { assert (G : forall l : trace L, (forall x, In x l -> In x a) -> filter (fun ar => mem (fst ar) (dkeys a)) l = l).
      { induction l as [|[k v] l IH]; intros Hin; cbn [filter fst]; [reflexivity|].
        assert (E : mem k (dkeys a) = true).
        { apply mem_In, in_map_iff. exists (k, v). split; [reflexivity|apply Hin; left; reflexivity]. }
        rewrite E, IH; [reflexivity|]. intros x Hx. apply Hin. right; exact Hx. }
      apply G. auto. }
    assert (Eb : filter (fun ar : string * rv L => mem (fst ar) (dkeys a)) b = []).
    { assert (G : forall l : trace L, (forall x, In x l -> In x b) -> filter (fun ar => mem (fst ar) (dkeys a)) l = []).
      { induction l as [|[k v] l IH]; intros Hin; cbn [filter fst]; [reflexivity|].
        assert (E : mem k (dkeys a) = false).
        { apply mem_not_In. intros Hka. apply (Hd k Hka). apply in_map_iff. exists (k, v).
          split; [reflexivity|apply Hin; left; reflexivity]. }
        rewrite E. apply IH. intros x Hx. apply Hin. right; exact Hx. }
      apply G. auto. }
    rewrite Ea, Eb, app_nil_r. reflexivity.
  Qed.

  Lemma propose_marginal (HL : lib_laws L) oid pid p' f' o' q o tf nr c kws s r s' :
    wf_dict kws -> wf_st s -> ~ In pid (substituted (IExtend pid p' f' o')) ->
    returns (run (L := L) (IPropose oid (IExtend pid p' f' o') q o tf nr) c kws) s r s' ->
    exists qo s1 po s2,
      returns (run q c (sub_kwargs (in_ix o) kws)) s qo s1 /\
      (let t := Some (out_trace qo) in
       returns (run p' c (sub_kwargs (in_ix o') (sub_kwargs (in_ix o) kws)))
         (set_cond (oid_of f') t (set_cond (oid_of p') t (set_cond pid t s1))) po s2) /\
      (if nr then out_trace r = out_trace po else detached_rerun (out_trace po) (out_trace r)) /\
      out_output r = detach_output (out_output po).
  Proof.
    intros Hk Hs Hself H. pose proof (wf_sub_kwargs (in_ix o) kws Hk) as Hk'.
    apply propose_law in H; [|exact HL|exact Hk|exact Hs].
    destruct H as (qo & s1 & eo & s2 & qt & px & mt & mo & Hq & Hp & Es & Wq & Wp & S1 & Ht & Hpx & Hlv & _ & _ & _ & _ & _ & Htp & _ & Ho & Htr & _).
    assert (Hwq : forall t, Some (out_trace qo) = Some t -> wf_dict t) by (intros t [= <-]; exact Wq).
    apply extend_law in Hp; [|exact HL|exact Hk'|apply wf_set_cond; assumption|exact Hself].
    cbn [oid_of] in Hp. rewrite get_set_same in Hp.
    destruct Hp as (po & s3 & fo & s4 & Hp' & _ & _ & _ & _ & _ & Hm & (_ & Hd & _) & _ & Etr & _).
    exists qo, s1, po, s3. split; [exact Hq|]. split; [exact Hp'|].
    destruct Htp as (keys & Em & ->). rewrite Hm in Em. injection Em as <- <-.
    rewrite Etr in Htr. rewrite filter_keys_app in Htr by exact Hd. split; [exact Htr|exact Ho].
  Qed.

  (** C12 *)
  Lemma propose_objective_data (HL : lib_laws L) oid p q o tf nr c kws s r s' :
    wf_dict kws -> wf_st s ->
    returns (run (L := L) (IPropose oid p q o tf nr) c kws) s r s' ->
    exists qo s1 po s2 px,
      returns (run q c (sub_kwargs (in_ix o) kws)) s qo s1 /\
      returns (run p c (sub_kwargs (in_ix o) kws)) (set_cond (oid_of p) (Some (out_trace qo)) s1) po s2 /\
      out_px r = Some px /\
      px_lw px = (if is_tensor L (out_lw qo) then detach L (out_lw qo) else to_tensor L (out_lw qo)) /\
      out_lw r = detach L (tadd L (out_lw qo) (px_lv px)) /\
      px_proposal_trace px = out_trace qo /\ px_target_trace px = out_trace po /\
      (forall a, In a (px_nodes px) <->
         exists v, dget a (out_trace qo) = Some v /\
                   (rv_prov v = OBSERVED \/ (rv_prov v <> OBSERVED /\ latent_in (out_trace po) a = true))).
  Proof.
    intros Hk Hs H. apply propose_law in H; [|exact HL|exact Hk|exact Hs].
    destruct H as (qo & s1 & po & s2 & qt & px & mt & mo & Hq & Hp & Es & Wq & Wp & S1 & Ht & Hpx & Hlv & Hlw & Hl1 & Hpt & Htt & Hn & _).
    exists qo, s1, po, s2, px. repeat (split; [assumption|]).
    intros a. rewrite Hn. unfold charged. destruct (dget a (out_trace qo)) as [v|].
    - rewrite orb_true_iff. unfold is_observed. split.
      + intros H. exists v. split; [reflexivity|]. destruct (rv_prov v); cbn in H; try (left; reflexivity); right;
          destruct H as [H|H]; try discriminate; (split; [discriminate|exact H]).
      + intros (v' & [= <-] & [E|[_ E]]); [left; rewrite E; reflexivity|right; exact E].
    - split; [discriminate|intros (v & E & _); discriminate].
  Qed.

  (** C13 *)
  Lemma detach_output_spec G (v : pyval) : output_no_grad G (detach_output v) /\ same_output G (detach_output v) v.
  Proof.
    destruct v as [| | | |t|l|d|n]; cbn; try (split; [exact I|reflexivity]).
    - split; [apply no_grad_detach|apply val_detach].
    - split.
      + intros k t Hin. apply in_map_iff in Hin. destruct Hin as ([k' v] & E & _). cbn in E.
        destruct v; cbn in E; try discriminate. injection E as _ <-. apply no_grad_detach.
      + induction d as [|[k v] d IH]; cbn; constructor; [|exact IH]. split; [reflexivity|]. cbn.
        destruct v; cbn; try reflexivity. apply val_detach.
  Qed.

  Lemma propose_no_grad (HL : lib_laws L) (G : grad_view L) oid p q o tf nr c kws s r s' :
    wf_dict kws -> wf_st s ->
    returns (run (L := L) (IPropose oid p q o tf nr) c kws) s r s' ->
    no_grad G (out_lw r) /\
    output_no_grad G (out_output r) /\
    (nr = false -> forall a v, In (a, v) (out_trace r) ->
       no_grad G (rv_value v) /\
       match rv_den v with
       | Proper d => rv_logp v = logp L d (rv_value v)
       | Improper f => rv_logp v = f (rv_value v)
       | OtherRV => False
       end) /\
    exists qo s1 po s2 mt mo px,
      returns (run q c (sub_kwargs (in_ix o) kws)) s qo s1 /\
      returns (run p c (sub_kwargs (in_ix o) kws)) (set_cond (oid_of p) (Some (out_trace qo)) s1) po s2 /\
      target_part p po mt mo /\ out_px r = Some px /\
      val G (out_lw r) = val G (tadd L (out_lw qo) (px_lv px)) /\
      same_output G (out_output r) mo /\
      Forall2 (fun ar ar' => fst ar = fst ar' /\ val G (rv_value (snd ar)) = val G (rv_value (snd ar')))
        (out_trace r) mt.
  Proof.
    intros Hk Hs H. apply propose_law in H; [|exact HL|exact Hk|exact Hs].
    destruct H as (qo & s1 & po & s2 & qt & px & mt & mo & Hq & Hp & Es & Wq & Wp & S1 & Ht & Hpx & Hlv & Hlw & Hl1 & Hpt & Htt & Hn & Htp & _ & Ho & Htr & _).
    split; [rewrite Hlw; apply no_grad_detach|].
    split; [rewrite Ho; apply detach_output_spec|].
    split.
    - intros ->. intros a v Hin. unfold detached_rerun in Htr.
      assert (HF : Forall (fun ar : string * rv L => no_grad G (rv_value (snd ar)) /\
        match rv_den (snd ar) with
        | Proper d => rv_logp (snd ar) = logp L d (rv_value (snd ar))
        | Improper f => rv_logp (snd ar) = f (rv_value (snd ar))
        | OtherRV => False
        end) (out_trace r)).
      { clear - Htr. induction Htr as [|x y l l' Hxy Hl IH]; constructor; [|exact IH].
        destruct Hxy as (_ & Ev & _ & Ed & Hd). rewrite Ev, Ed. split; [apply no_grad_detach|].
        destruct (rv_den (snd x)); [exact (proj1 Hd)|exact Hd|exact Hd]. }
      rewrite Forall_forall in HF. exact (HF _ Hin).
    - exists qo, s1, po, s2, mt, mo, px. split; [exact Hq|]. split; [exact Hp|]. split; [exact Htp|].
      split; [exact Hpx|]. split; [rewrite Hlw; apply val_detach|].
      split; [rewrite Ho; apply detach_output_spec|].
      destruct nr.
      + rewrite Htr. clear. induction mt; constructor; auto.
      + unfold detached_rerun in Htr. clear - Htr. induction Htr as [|x y l l' Hxy Hl IH]; constructor; [|exact IH].
        destruct Hxy as (Ef & Ev & _). split; [exact Ef|]. rewrite Ev. apply val_detach.
  Qed.

  (** C40: with a bare Program as proposal no call ever returns *)
  Lemma propose_program_never oid p qid sg m o tf nr c kws s r s' :
    ~ returns (run (L := L) (IPropose oid p (IProg qid sg m) o tf nr) c kws) s r s'.
  Proof.
    intros H. cbn [run] in H.
    apply ret_mbind in H. destruct H as (u0 & s0 & _ & H).
    apply ret_mbind in H. destruct H as (b & s3 & _ & H).
    apply ret_mbind in H. destruct H as (qo & s1 & _ & H).
    apply ret_mbind in H. destruct H as (po & s2 & _ & H).
    apply ret_mbind in H. destruct H as (qt & s4 & _ & H).
    apply ret_mbind in H. destruct H as (lu & s5 & _ & H).
    apply ret_mbind in H. destruct H as ([mo mt] & s6 & _ & H).
    apply ret_mbind in H. destruct H as (tr & s7 & _ & H).
    apply ret_mbind in H. destruct H as (lw & s8 & _ & H).
    apply ret_mbind in H. destruct H as (pt & s9 & _ & H).
    apply ret_mbind in H. destruct H as (tt' & s10 & _ & H).
    apply ret_mbind in H. destruct H as (fw & s11 & Hf & H).
    apply ret_lift in Hf. destruct Hf as [Hf _]. discriminate.
  Qed.

  Lemma forward_trace_ok q c kws s qo s1 :
    wf_dict kws -> wf_st s -> returns (run (L := L) q c kws) s qo s1 ->
    match q with IProg _ _ _ => False | _ => True end ->
    exists fw, forward_trace q qo = Ok fw.
  Proof.
    intros Hk Hs H Hq. unfold forward_trace.
    destruct q as [oid sg m|oid q ix l0 rs dbg|oid p f o|oid q2 q1 o|oid p q o tf nr]; [contradiction| | | |]; cbn [debug_attr rbind].
    - apply run_resample_returns in H; [|exact Hk].
      destruct H as (qo' & s2 & items & lw2 & c1 & c2 & st2 & _ & _ & _ & _ & _ & _ & _ & ->).
      match goal with |- context [out_type (add_subs ?d ?sb ?x)] => destruct (sd_fields L d sb x) as (_ & _ & _ & -> & _) end.
      destruct dbg; eexists; reflexivity.
    - apply run_extend_returns in H; [|exact Hk|exact Hs].
      destruct H as (po & s2 & fo & s3 & lu & tr & l & _ & _ & _ & _ & _ & _ & _ & _ & _ & _ & _ & ->).
      match goal with |- context [out_type (add_subs ?d ?sb ?x)] => destruct (sd_fields L d sb x) as (_ & _ & _ & -> & _) end.
      destruct (in_debug o); eexists; reflexivity.
    - apply run_compose_returns in H; [|exact Hk].
      destruct H as (o1 & s2 & o2 & tr & l & _ & _ & _ & _ & _ & _ & _ & ->).
      match goal with |- context [out_type (add_subs ?d ?sb ?x)] => destruct (sd_fields L d sb x) as (_ & _ & _ & -> & _) end.
      destruct (in_debug o); [|eexists; reflexivity]. rewrite orb_true_r. eexists; reflexivity.
    - apply run_propose_returns in H; [|exact Hk|].
      2:{ intros qo' s3 Hq'. exact (proj1 (run_returns_wf _ _ _ _ _ _ (wf_sub_kwargs _ _ Hk) Hs Hq')). }
      destruct H as (qo' & s2 & po & s3 & qt & lu & mo & mt & tr & pt & tt' & fw & l & _ & _ & _ & _ & _ & _ & _ & _ & _ & _ & _ & _ & _ & _ & _ & ->).
      match goal with |- context [out_type (add_subs ?d ?sb ?x)] => destruct (sd_fields L d sb x) as (_ & _ & _ & -> & _) end.
      destruct (in_debug o); eexists; reflexivity.
  Qed.

  (** when Propose returns *)
  Lemma propose_runs (HL : lib_laws L) oid p q o nr c kws s ds1 qo s1 ds2 po s2 :
    wf_dict kws -> wf_st s -> clash ["self"; "c"; "fn"] kws = false ->
    path (run (L := L) q c (sub_kwargs (in_ix o) kws) s) ds1 (Ok qo, s1) ->
    path (run p c (sub_kwargs (in_ix o) kws) (set_cond (oid_of p) (Some (out_trace qo)) s1)) ds2 (Ok po, s2) ->
    is_compose p = false ->
    (forall rep pv, lj_ok L (kwarg "reparameterized" (VBool true) kws) rep pv = true) ->
    (is_extend p = true -> out_marginal po <> None) ->
    (forall a v, In (a, v) (out_trace po) -> rv_den v <> OtherRV) ->
    (forall z, is_tensor L (tadd L (out_lw qo) (tsub L (out_lw po) z)) = true) ->
    match q with IProg _ _ _ => False | _ => True end ->
    (forall r l, exists l', in_loss o r l = Ok l') ->
    exists r, path (run (IPropose oid p q o None nr) c kws s) (ds1 ++ ds2) (Ok r, set_cond (oid_of p) None s2).
  Proof.
    intros Hk Hs Hc H1 H2 Hcp Hlj Hmg Hoth Hten Hfw Hl.
    destruct (clash_split L kws Hc) as [Hc1 Hc2].
    pose proof (wf_sub_kwargs (in_ix o) kws Hk) as Hk'.
    destruct (run_returns_wf _ _ _ _ _ _ Hk' Hs (path_outcome _ _ _ _ H1)) as [Wq S1].
    assert (Hwq : forall t, Some (out_trace qo) = Some t -> wf_dict t) by (intros t [= <-]; exact Wq).
    destruct (run_returns_wf _ _ _ _ _ _ Hk' (wf_set_cond _ _ _ S1 Hwq) (path_outcome _ _ _ _ H2)) as [Wp S2].
    pose proof (bind_call_ok kws Hc1) as Hb.
    assert (Hfn : clash ["fn"] (sub_kwargs (in_ix o) kws) = false).
    { rewrite clash_sub_kwargs by (cbn; intuition discriminate). exact Hc2. }
    set (nodes := sdiff (dkeys (out_trace qo)) (sdiff (latent_addrs (out_trace qo)) (latent_addrs (out_trace po)))).
    destruct (log_joint (kwarg "sample_dims" VNone kws) (kwarg "batch_dim" VNone kws)
                 (kwarg "reparameterized" (VBool true) kws) nodes (out_trace qo)) as [lu|e] eqn:Elu.
    2:{ apply log_joint_err in Elu; [|exact HL]. destruct Elu as (_ & n & r & _ & _ & E). rewrite Hlj in E. discriminate. }
    assert (Hm : exists mo mt, marginalize p po = Ok (mo, mt) /\ forall x, In x mt -> In x (out_trace po)).
    { unfold marginalize. destruct (is_extend p).
      - destruct (out_marginal po) as [[mk mo]|]; [|exfalso; apply Hmg; reflexivity].
        rewrite copytraces_filter by exact Wp. eexists _, _. split; [reflexivity|]. intros x Hx. apply filter_In in Hx. apply Hx.
      - eexists _, _. split; [reflexivity|]. auto. }
    destruct Hm as (mo & mt & Hm & Hsub).
    assert (Wm : wf_dict mt).
    { unfold marginalize in Hm. destruct (is_extend p).
      - destruct (out_marginal po) as [[mk mo']|]; [|discriminate].
        destruct (copytraces _ NoOverlaps [out_trace po]) as [t0|e] eqn:Ec; cbn in Hm; [|discriminate].
        injection Hm as _ <-. eapply copytraces_wf; exact Ec.
      - injection Hm as _ <-. exact Wp. }
    assert (Htr : exists tr, (if nr then Ok mt else rerun_with_detached_values mt) = Ok tr).
    { destruct nr; [eexists; reflexivity|]. destruct (rerun_spec L mt Wm) as [G _].
      destruct G as (tr & E & _); [|exists tr; exact E]. intros a v Hin. apply (Hoth a). apply Hsub, Hin. }
    destruct Htr as [tr Htr].
    assert (Hf : exists fw, forward_trace q qo = Ok fw).
    { apply (forward_trace_ok q c _ s qo s1 Hk' Hs (path_outcome _ _ _ _ H1) Hfw). }
    destruct Hf as [fw Hf].
    set (ix := resolve_ix (in_ix o) (kwarg "ix" VNone kws)).
    set (lv := tsub L (out_lw po) lu).
    set (r0 := mkOut tr (detach L (tadd L (out_lw qo) lv)) (detach_output mo) TyPropose (Some ix) None None
                    (Some (mkPX nodes lv (if is_tensor L (out_lw qo) then detach L (out_lw qo) else to_tensor L (out_lw qo))
                       (out_trace qo) (out_trace po) fw)) []).
    destruct (Hl r0 (match out_loss qo with Some l => l | None => match in_loss0 o with Some l => l | None => tzero L end end)) as [l El].
    eexists. cbn [run].
    eapply path_bind_pure; [rewrite Hcp; reflexivity|].
    eapply path_bind_pure; [rewrite Hb; reflexivity|].
    rewrite (sub_kwargs_eq kws _ (in_ix o) Hb).
    eapply path_bind_ok; [apply path_mdispatch; [exact Hk'|exact Hfn|exact H1]|].
    rewrite <- (app_nil_r ds2).
    eapply path_bind_ok; [apply path_with; [exact Hwq|]; apply path_mdispatch; [exact Hk'|exact Hfn|exact H2]|].
    eapply path_bind_pure; [reflexivity|]. cbn [b_sd b_bd b_rep b_ix b_debug].
    eapply path_bind_pure; [fold nodes; rewrite Elu; reflexivity|].
    eapply path_bind_pure; [rewrite Hm; reflexivity|].
    eapply path_bind_pure; [rewrite Htr; reflexivity|].
    eapply path_bind_pure; [rewrite Hten; reflexivity|].
    eapply path_bind_pure; [rewrite copytraces_one by exact Wq; reflexivity|].
    eapply path_bind_pure; [rewrite copytraces_one by exact Wp; reflexivity|].
    eapply path_bind_pure; [rewrite Hf; reflexivity|].
    eapply path_bind_pure; [unfold add_loss; fold lv; fold ix; fold nodes; fold r0; rewrite El; reflexivity|].
    constructor.
  Qed.
End ThmPropose.
