(** Running gibbs_sweeps. *)
From Verif Require Export Thm_Gibbs SpecGibbs.
From Verif Require Import Prop_Gibbs.
Open Scope nat_scope.

Section Kws.
  Context {L : lib}.
  Notation pyval := (pyval (T L)).
  Lemma plain_clash bound (kws : dict pyval) : plain_call kws -> (forall k, In k bound -> In k ["self"; "c"; "fn"; "trace"]) -> clash bound kws = false.
  Proof.
    intros [_ H] Hb. destruct (clash bound kws) eqn:E; [|reflexivity]. exfalso. unfold clash in E.
    apply existsb_exists in E. destruct E as ([k v] & Hin & Hm). apply mem_In in Hm. cbn [fst] in Hm.
    apply (H k); [apply Hb, Hm|]. apply in_map_iff. exists (k, v). auto.
  Qed.
  Lemma plain_sub self_ix (kws : dict pyval) : plain_call kws -> plain_call (sub_kwargs (L := L) self_ix kws).
  Proof.
    intros [Hwf H]. split; [apply wf_sub_kwargs, Hwf|]. intros k Hk Hin. unfold sub_kwargs in Hin. rewrite dkeys_app in Hin.
    apply in_app_or in Hin. destruct Hin as [Hin|Hin].
    - cbn in Hin. cbn in Hk. intuition (subst; discriminate).
    - apply (H k Hk). apply in_map_iff in Hin. destruct Hin as (kv & <- & Hin). apply filter_In in Hin. apply in_map, Hin.
  Qed.
  Lemma sub_ix (self_ix : pyval) kws : is_none self_ix = false -> kwarg "ix" VNone (sub_kwargs (L := L) self_ix kws) = self_ix.
  Proof. intros H. unfold sub_kwargs. rewrite H. reflexivity. Qed.
  Lemma plain_prog sg (kws : dict pyval) : plain_call kws -> firstn 3 (s_args sg) = ["self"; "trace"; "c"] ->
    clash ["self"] kws || clash (firstn 3 (s_args sg)) (prog_kwargs sg kws) = false.
  Proof.
    intros Hp Hs. rewrite (plain_clash ["self"] kws Hp) by (cbn; tauto). cbn [orb]. rewrite Hs.
    destruct (clash _ (prog_kwargs sg kws)) eqn:E; [|reflexivity]. exfalso. unfold clash in E.
    apply existsb_exists in E. destruct E as ([k v] & Hin & Hm). apply mem_In in Hm. cbn [fst] in Hm.
    unfold prog_kwargs in Hin. apply filter_In in Hin. destruct Hin as [Hin _].
    assert (Hk : In k (dkeys (dmerge [("sample_dims", k_sd kws); ("batch_dim", k_bd kws); ("reparameterized", k_rep kws)]
         (filter (fun kv => negb (mem (fst kv) ["sample_dims"; "batch_dim"; "reparameterized"])) kws)))).
    { apply in_map_iff. exists (k, v). auto. }
    apply In_dkeys_dmerge in Hk. destruct Hk as [Hk|Hk]; [cbn in Hk, Hm; intuition (subst; discriminate)|].
    destruct Hp as [_ Hp]. apply (Hp k); [cbn in Hm; cbn; tauto|].
    apply in_map_iff in Hk. destruct Hk as (kv & <- & Hin'). apply filter_In in Hin'. apply in_map, Hin'.
  Qed.
End Kws.

Section Rules.
  Context {L : lib} (HL : lib_laws L) (HT : tensor_laws L) (Hlj : forall r b p, lj_ok L r b p = true).
  Notation pyval := (pyval (T L)). Notation trace := (trace L). Notation out := (out L).

  Lemma log_joint_ok sd bd rep nodes (tr : trace) : exists x, log_joint sd bd rep nodes tr = Ok x.
  Proof.
    destruct (log_joint sd bd rep nodes tr) as [x|e] eqn:E; [eauto|]. apply log_joint_err in E; [|exact HL].
    destruct E as (_ & n & r & _ & _ & E). rewrite Hlj in E. discriminate.
  Qed.
  Lemma log_joint_tensor sd bd rep nodes (tr : trace) x n nd : log_joint sd bd rep nodes tr = Ok x ->
    In n nodes -> dget n tr = Some nd -> is_tensor L (bsum L sd bd (rv_logp nd)) = true -> is_tensor L x = true.
  Proof.
    unfold log_joint. intros H Hin Hd Hb. assert (Hin' : In n (order L nodes)) by (eapply Permutation_in; [symmetry; apply (order_perm L HL)|exact Hin]).
    clear Hin. revert H Hin'. generalize (order L nodes) as ns, (tzero L) as acc.
    assert (G : forall ns (acc : T L), log_joint_from sd bd rep ns tr acc = Ok x -> is_tensor L acc = true -> is_tensor L x = true).
    { induction ns as [|m ns IH]; cbn; intros acc H Ha; [congruence|]. destruct (dget m tr); [|eapply IH; eassumption].
      rewrite Hlj in H. eapply IH; [exact H|]. rewrite (tl_add L HT), Ha. reflexivity. }
    induction ns as [|m ns IH]; cbn; intros acc H Hin; [contradiction|]. destruct Hin as [->|Hin].
    - rewrite Hd, Hlj in H. eapply G; [exact H|]. rewrite (tl_add L HT), Hb. apply orb_true_r.
    - destruct (dget m tr); [rewrite Hlj in H|]; eapply IH; eassumption.
  Qed.

  (** *** programs *)
  Lemma always_prog oid sg m c (kws : dict pyval) s (P : res out * st L -> Prop) : plain_call kws -> firstn 3 (s_args sg) = ["self"; "trace"; "c"] ->
    always (exec (get_cond oid s) (m c (prog_kwargs sg kws)) [] (log_call (mkCall oid c (prog_kwargs sg kws) (get_cond oid s)) s))
      (fun x => match fst x with
                | Ok (v, tr) => forall lw, ((exists a d z p b, dget a tr = Some (mkRV (Proper d) z (logp L d z) p b true) /\ p = OBSERVED) -> wf_dict tr -> is_tensor L lw = true) ->
                                P (Ok (mkOut tr lw v TyProgram None None None None []), snd x)
                | Err e => P (Err e, snd x) end) ->
    always (run (IProg oid sg m) c kws s) P.
  Proof.
    intros Hp Hs H. cbn [run]. eapply always_teq; [apply forward_eq, plain_prog; assumption|]. apply always_tbind.
    eapply always_impl; [exact H|]. intros [[[v tr]|e] s1]; unfold after; cbn [fst snd]; [|intros HP; apply always_leaf, HP].
    intros HP. apply always_leaf. cbn [prog_tail].
    match goal with |- context [log_joint ?a ?b ?r ?n ?t] => destruct (log_joint_ok a b r n t) as [lw Elw]; rewrite Elw end.
    cbn [rbind]. apply HP. intros (a & d & z & p & b & Hd & ->) Hwf. eapply log_joint_tensor; [exact Elw| |exact Hd|apply (tl_sum L HT)].
    apply In_sdiff. split; [eapply dget_In_keys, Hd|]. intros Hin. apply In_sdiff in Hin. destruct Hin as [Hin _].
    apply In_latent_addrs in Hin; [|exact Hwf]. unfold latent_in in Hin. rewrite Hd in Hin. discriminate.
  Qed.

  (** *** the tails of the combinators *)
  Lemma compose_tail_ok o (kws : dict pyval) (o1 o2 : out) : in_loss o = default_loss ->
    wf_dict (out_trace o1) -> wf_dict (out_trace o2) -> (forall k, In k (dkeys (out_trace o2)) -> ~ In k (dkeys (out_trace o1))) ->
    exists r, compose_tail o kws o1 o2 = Ok r /\ out_trace r = out_trace o2 ++ out_trace o1 /\ out_output r = out_output o2 /\
      out_type r = TyCompose /\ (in_debug o = true -> get_sub "q2_out" r = Some o2).
  Proof.
    intros Hl Hw1 Hw2 Hd. unfold compose_tail. rewrite copytraces_two_disjoint by assumption. cbn [rbind].
    rewrite (proj2 (sinter_nil _ _) Hd). unfold add_loss. rewrite Hl. unfold default_loss. cbn [rmap rbind].
    eexists. split; [reflexivity|]. unfold add_subs. destruct (_ || in_debug o) eqn:E.
    - repeat split; reflexivity.
    - repeat split; try reflexivity. intros H. rewrite H, orb_true_r in E. discriminate.
  Qed.
  Lemma extend_tail_ok o (kws : dict pyval) ct (po fo : out) : in_loss o = default_loss ->
    wf_dict (out_trace po) -> wf_dict (out_trace fo) -> (forall k, In k (dkeys (out_trace fo)) -> ~ In k (dkeys (out_trace po))) ->
    (forall k nd, In (k, nd) (out_trace fo) -> rv_prov nd = REUSED) ->
    exists r, extend_tail o kws (Some ct) po fo = Ok r /\ out_trace r = out_trace po ++ out_trace fo /\
      out_marginal r = Some (dkeys (out_trace po), out_output po) /\ (is_tensor L (out_lw po) = true -> is_tensor L (out_lw r) = true).
  Proof.
    intros Hl Hw1 Hw2 Hd Hr. unfold extend_tail.
    assert (E : forallb (fun kv => negb (is_observed (snd kv))) (out_trace fo) = true).
    { apply forallb_forall. intros [k nd] Hin. unfold is_observed. cbn [snd]. rewrite (Hr k nd Hin). reflexivity. }
    rewrite E. cbn [rbind]. rewrite (proj2 (sinter_nil _ _) Hd).
    match goal with |- context [log_joint ?a ?b ?r ?n ?t] => destruct (log_joint_ok a b r n t) as [lw Elw]; rewrite Elw end. cbn [rbind].
    rewrite copytraces_two_disjoint; [|assumption..|intros k H1 H2; exact (Hd k H2 H1)]. cbn [rbind].
    unfold add_loss. rewrite Hl. unfold default_loss. cbn [rmap rbind].
    eexists. split; [reflexivity|]. unfold add_subs. destruct (_ || in_debug o); cbn; (split; [reflexivity|]; split; [reflexivity|];
      intros H; rewrite (tl_add L HT), H; reflexivity).
  Qed.
  Lemma propose_tail_ok o p q (kws : dict pyval) (qo po : out) fwd mo mt :
    wf_dict (out_trace qo) -> wf_dict (out_trace po) -> is_tensor L (out_lw po) = true ->
    forward_trace q qo = Ok fwd -> marginalize p po = Ok (mo, mt) ->
    (forall r l0, (exists px, out_px r = Some px /\ px_target_trace px = out_trace po /\ px_forward_trace px = fwd) -> exists l, in_loss o r l0 = Ok l) ->
    exists r px, propose_tail o p q None true kws qo po = Ok r /\ out_trace r = mt /\ out_output r = detach_output mo /\
      out_type r = TyPropose /\ out_px r = Some px /\ px_proposal_trace px = out_trace qo /\ px_target_trace px = out_trace po /\ px_forward_trace px = fwd.
  Proof.
    intros Hwq Hwp Ht Hf Hm Hl. unfold propose_tail. cbn [apply_transf rbind].
    match goal with |- context [log_joint ?a ?b ?r ?n ?t] => destruct (log_joint_ok a b r n t) as [lu Elu]; rewrite Elu end. cbn [rbind].
    rewrite Hm. cbn [rbind fst snd].
    rewrite (tl_add L HT), (tl_sub L HT), Ht. rewrite orb_true_r. cbn [rbind].
    rewrite !copytraces_one by assumption. cbn [rbind]. rewrite Hf. cbn [rbind]. unfold add_loss.
    match goal with |- context [in_loss o ?r ?l] => destruct (Hl r l) as [l' El]; [eexists; split; [reflexivity|]; split; reflexivity|rewrite El] end.
    cbn [rmap rbind]. eexists. eexists. split; [reflexivity|]. unfold add_subs. destruct (_ || in_debug o); cbn; repeat split; reflexivity.
  Qed.

  Lemma always_compose oid q2 q1 o c (kws : dict pyval) s (P : res out * st L -> Prop) : plain_call kws ->
    always (run q1 c (sub_kwargs (in_ix o) kws) s) (fun x => match fst x with
      | Err e => P (Err e, snd x)
      | Ok o1 => always (run q2 (out_output o1) (sub_kwargs (in_ix o) kws) (snd x)) (fun y => match fst y with
          | Err e => P (Err e, snd y)
          | Ok o2 => P (compose_tail o kws o1 o2, snd y) end) end) ->
    always (run (ICompose oid q2 q1 o) c kws s) P.
  Proof.
    intros Hp H. eapply always_teq; [apply run_compose_eq; [apply Hp|apply plain_clash; [exact Hp|cbn; tauto]]|].
    apply always_tbind. eapply always_impl; [exact H|]. intros [[o1|e] s1]; unfold after; cbn [fst snd]; [|intros HP; apply always_leaf, HP].
    intros H1. apply always_tbind. eapply always_impl; [exact H1|]. intros [[o2|e] s2]; cbn [fst snd]; intros HP; apply always_leaf, HP.
  Qed.
  Lemma always_extend oid p f o c (kws : dict pyval) s (P : res out * st L -> Prop) : plain_call kws -> wf_st s ->
    let unset s := set_cond (oid_of p) None (set_cond (oid_of f) None s) in
    always (run p c (sub_kwargs (in_ix o) kws) (set_cond (oid_of f) (get_cond oid s) (set_cond (oid_of p) (get_cond oid s) s))) (fun x => match fst x with
      | Err e => P (Err e, unset (snd x))
      | Ok po => always (run f (out_output po) (sub_kwargs (in_ix o) kws) (snd x)) (fun y => match fst y with
          | Err e => P (Err e, unset (snd y))
          | Ok fo => P (extend_tail o kws (get_cond oid (unset (snd y))) po fo, unset (snd y)) end) end) ->
    always (run (IExtend oid p f o) c kws s) P.
  Proof.
    intros Hp Hs unset H. eapply always_teq; [apply run_extend_eq; [apply Hp|exact Hs|apply plain_clash; [exact Hp|cbn; tauto]]|].
    apply always_tbind. eapply always_impl; [exact H|]. intros [[po|e] s1]; cbn [fst snd]; [|intros HP; apply always_leaf, HP].
    intros H1. apply always_tbind. eapply always_impl; [exact H1|]. intros [[fo|e] s2]; cbn [fst snd]; intros HP; apply always_leaf, HP.
  Qed.
  Lemma always_propose oid p q o tf nr c (kws : dict pyval) s (P : res out * st L -> Prop) : plain_call kws -> wf_st s -> is_compose p = false ->
    always (run q c (sub_kwargs (in_ix o) kws) s) (fun x => match fst x with
      | Err e => P (Err e, snd x)
      | Ok qo => wf_dict (out_trace qo) /\
          always (run p c (sub_kwargs (in_ix o) kws) (set_cond (oid_of p) (Some (out_trace qo)) (snd x))) (fun y => match fst y with
          | Err e => P (Err e, set_cond (oid_of p) None (snd y))
          | Ok po => P (propose_tail o p q tf nr kws qo po, set_cond (oid_of p) None (snd y)) end) end) ->
    always (run (IPropose oid p q o tf nr) c kws s) P.
  Proof.
    intros Hp Hs Hc H. eapply always_teq; [apply run_propose_eq; [apply Hp|exact Hs|apply plain_clash; [exact Hp|cbn; tauto]|exact Hc]|].
    apply always_tbind. eapply always_impl; [exact H|]. intros [[qo|e] s1]; unfold after; cbn [fst snd]; [|intros HP; apply always_leaf, HP].
    intros [Hwf H1]. rewrite with_eq by (intros tr [= <-]; exact Hwf). apply always_tbind. apply always_tbind.
    eapply always_impl; [exact H1|]. intros [[po|e] s2]; cbn [fst snd]; intros HP; apply always_leaf; cbn [fst snd]; apply always_leaf, HP.
  Qed.
  Lemma always_resample oid q c (kws : dict pyval) s rs (P : res out * st L -> Prop) : plain_call kws ->
    always (run q c (sub_kwargs VNone kws) s) (fun x => match fst x with
      | Err e => P (Err e, snd x)
      | Ok qo => exists c1, out_output qo = VDict c1 /\
          (forall e kw, outcome (rs_call rs (out_trace qo) (out_lw qo) kw) (Err e) -> P (Err e, snd x)) /\
          (forall items lw2 kw, outcome (rs_call rs (out_trace qo) (out_lw qo) kw) (Ok (items, lw2)) ->
             exists c2 st2, resample_output c1 (as_trace items) = Ok c2 /\ hook (snd x) (store (snd x)) (out_trace qo) (as_trace items) = Ok st2 /\
             forall r, out_trace r = as_trace items -> out_output r = VDict c2 -> P (Ok r, set_store st2 (snd x))) end) ->
    always (run (resampled L rs oid q) c kws s) P.
  Proof.
    intros Hp H. assert (Hb := bind_call_ok kws (plain_clash ["self"; "c"] kws Hp ltac:(cbn; tauto))).
    unfold resampled. cbn [run]. rewrite mbind_lift, Hb. cbn zeta. rewrite (sub_kwargs_eq kws _ VNone Hb).
    unfold mbind at 1. apply always_tbind. eapply always_impl; [exact H|]. intros [[qo|e] s1]; cbn [fst snd]; [|intros HP; apply always_leaf, HP].
    intros (c1 & Ec1 & He & Hok). unfold mbind at 1. apply always_tbind. apply always_tbind. intros x Hx.
    apply always_leaf. cbn [fst snd]. destruct x as [[items lw2]|e]; [|apply always_leaf, (He e _ Hx)].
    destruct (Hok items lw2 _ Hx) as (c2 & st2 & E2 & Eh & HP). cbn [fst snd]. rewrite Ec1, mbind_lift, E2.
    unfold mbind at 1, resample_update. rewrite Eh. cbn [tbind fst snd]. rewrite mbind_lift. unfold add_loss, default_loss. cbn [rmap rbind].
    apply always_leaf. apply HP; unfold add_subs; destruct (truthy _ || false); reflexivity.
  Qed.
End Rules.
