(** Properties C01, C02 and C04 once more, for the statements a user model executes (instead of
    the provenances recorded in the trace it returns). *)
From Verif Require Import Thm_Program Instances.

(** ** Specification: executing a model statement by statement
    An event is one executed statement: its address, its distribution, its value, and where
    the value came from. *)
Inductive origin : Type := Given | Substituted | Drawn.
Record event (L : lib) : Type := mkEvent { ev_addr : string; ev_dist : D L; ev_value : T L; ev_from : origin }.
Arguments mkEvent {L}. Arguments ev_addr {L}. Arguments ev_dist {L}. Arguments ev_value {L}. Arguments ev_from {L}.

(** [executes sub m es o]: some execution of [m], in which sample statements at the addresses of
    [sub] take the values of [sub], executes the statements [es] and returns [o] *)
Inductive executes {L : lib} (sub : string -> option (T L)) : model L -> list (event L) -> pyval (T L) -> Prop :=
| ex_ret o : executes sub (MRet o) [] o
| ex_observe a d v rep k es o :
    executes sub (k v) es o -> executes sub (MVar a d (Some (v, None)) rep k) (mkEvent a d v Given :: es) o
| ex_substituted a d v rep k es o : sub a = Some v ->
    executes sub (k v) es o -> executes sub (MVar a d None rep k) (mkEvent a d v Substituted :: es) o
| ex_drawn a d v rep k es o : sub a = None ->
    executes sub (k v) es o -> executes sub (MVar a d None rep k) (mkEvent a d v Drawn :: es) o
| ex_cond k x es o : executes sub (k x) es o -> executes sub (MCond k) es o
| ex_trace k x es o : executes sub (k x) es o -> executes sub (MTrace k) es o
| ex_get key k x es o : executes sub (k x) es o -> executes sub (MGetStore key k) es o
| ex_set key w k es o : executes sub k es o -> executes sub (MSetStore key w k) es o.

(** the sum of the log-densities of the selected statements, each at its value *)
Definition statements_logp {L : lib} (sd bd : pyval (T L)) (P : event L -> bool) (es : list (event L)) : T L :=
  tsum (map (fun e => bsum L sd bd (logp L (ev_dist e) (ev_value e))) (filter P es)).
Definition is_given {L : lib} (e : event L) : bool := match ev_from e with Given => true | _ => false end.
Definition is_substituted {L : lib} (e : event L) : bool := match ev_from e with Substituted => true | _ => false end.

(** the trace records the statement: its address, its value, its log-density, and the matching provenance *)
Definition recorded {L : lib} (e : event L) (ar : string * rv L) : Prop :=
  fst ar = ev_addr e /\ rv_value (snd ar) = ev_value e /\ rv_den (snd ar) = Proper (ev_dist e) /\
  rv_logp (snd ar) = logp L (ev_dist e) (ev_value e) /\
  rv_prov (snd ar) = match ev_from e with Given => OBSERVED | Substituted => REUSED | Drawn => SAMPLED end.

(** ** Proofs *)
Section Proofs.
  Context {L : lib}.
  Lemma exec_statements cond m : plain m -> forall tr s o tr' s', wf_dict tr ->
    outcome (exec (L := L) cond m tr s) (Ok (o, tr'), s') ->
    exists es new, executes (value_in cond) m es o /\ tr' = tr ++ new /\ wf_dict tr' /\ Forall2 recorded es new /\
      forall e, In e es -> ev_from e <> Given -> match ev_from e with Drawn => value_in cond (ev_addr e) = None | _ => value_in cond (ev_addr e) = Some (ev_value e) end.
  Proof.
    induction 1 as [o0|e|a d v rep k Hk IH|k Hk IH|k Hk IH|key k Hk IH|key w k Hk IH];
      intros tr s o tr' s' Hwf H; cbn [exec] in H.
    - apply outcome_leaf in H. injection H as <- <- <-. exists [], []. rewrite app_nil_r.
      split; [constructor|]. split; [reflexivity|]. split; [exact Hwf|]. split; [constructor|]. intros e [].
    - apply outcome_leaf in H. discriminate.
    - assert (Hfin : forall x p s0,
        outcome (mbind (lift (add_node a (mkRV (Proper d) x (logp L d x) p rep true) tr))
                (fun tr1 => exec cond (k x) tr1) s0) (Ok (o, tr'), s') ->
        exists es new, executes (value_in cond) (k x) es o /\ wf_dict tr' /\
          tr' = tr ++ (a, mkRV (Proper d) x (logp L d x) p rep true) :: new /\ Forall2 recorded es new /\
          forall e, In e es -> ev_from e <> Given -> match ev_from e with Drawn => value_in cond (ev_addr e) = None | _ => value_in cond (ev_addr e) = Some (ev_value e) end).
      { intros x p s0 H0. unfold mbind in H0. apply outcome_tbind in H0.
        destruct H0 as ([[tr1|e] s1] & H1 & H2); unfold lift in H1; apply outcome_leaf in H1; cbn [fst snd] in H2.
        - injection H1 as H1 ->. apply add_node_wf in H1; [|exact Hwf]. destruct H1 as (Hwf1 & _ & ->).
          destruct (IH x _ _ _ _ _ Hwf1 H2) as (es & new & Hx & -> & W & HF & Hv).
          exists es, new. split; [exact Hx|]. split; [exact W|]. split; [rewrite <- app_assoc; reflexivity|]. auto.
        - apply outcome_leaf in H2. discriminate. }
      destruct v as [x|]; cbn [option_map] in H.
      + destruct (Hfin _ _ _ H) as (es & new & Hx & W & -> & HF & Hv).
        eexists (mkEvent a d x Given :: es), _. split; [constructor; exact Hx|]. split; [reflexivity|]. split; [exact W|].
        split; [constructor; [repeat split|exact HF]|]. intros e [<-|Hin] Hg; [cbn in Hg; congruence|apply Hv; assumption].
      + destruct (match cond with Some ct => dget a ct | None => None end) as [r1|] eqn:Ec.
        * assert (Ev : value_in cond a = Some (rv_value r1)).
          { unfold value_in. destruct cond as [ct|]; [|discriminate]. rewrite Ec. reflexivity. }
          destruct (Hfin _ _ _ H) as (es & new & Hx & W & -> & HF & Hv).
          eexists (mkEvent a d (rv_value r1) Substituted :: es), _. split; [constructor; [exact Ev|exact Hx]|]. split; [reflexivity|]. split; [exact W|].
          split; [constructor; [repeat split|exact HF]|]. intros e [<-|Hin] Hg; [exact Ev|apply Hv; assumption].
        * assert (Ev : value_in cond a = None).
          { unfold value_in. destruct cond as [ct|]; [|reflexivity]. rewrite Ec. reflexivity. }
          inversion H as [|? ? v ? Hd]; subst.
          destruct (Hfin _ _ _ Hd) as (es & new & Hx & W & -> & HF & Hv).
          eexists (mkEvent a d v Drawn :: es), _. split; [apply ex_drawn; [exact Ev|exact Hx]|]. split; [reflexivity|]. split; [exact W|].
          split; [constructor; [repeat split|exact HF]|]. intros e [<-|Hin] Hg; [exact Ev|apply Hv; assumption].
    - destruct (IH _ _ _ _ _ _ Hwf H) as (es & new & Hx & R). exists es, new. split; [econstructor; exact Hx|exact R].
    - destruct (IH _ _ _ _ _ _ Hwf H) as (es & new & Hx & R). exists es, new. split; [econstructor; exact Hx|exact R].
    - destruct (IH _ _ _ _ _ _ Hwf H) as (es & new & Hx & R). exists es, new. split; [econstructor; exact Hx|exact R].
    - destruct (IH _ _ _ _ _ Hwf H) as (es & new & Hx & R). exists es, new. split; [econstructor; exact Hx|exact R].
  Qed.

  Lemma forward_statements oid sg (m : pyval (T L) -> dict (pyval (T L)) -> model L) c kws s o s' :
    (forall c kws, plain (m c kws)) ->
    returns (forward oid sg m c kws) s o s' ->
    exists kws' es, calls s' = calls s ++ [mkCall oid c kws' (get_cond oid s)] /\
      executes (value_in (get_cond oid s)) (m c kws') es (out_output o) /\ wf_dict (out_trace o) /\
      Forall2 recorded es (out_trace o) /\
      forall e, In e es -> ev_from e <> Given -> match ev_from e with Drawn => value_in (get_cond oid s) (ev_addr e) = None | _ => value_in (get_cond oid s) (ev_addr e) = Some (ev_value e) end.
  Proof.
    intros Hp H. unfold returns, forward in H. destruct (clash ["self"] kws || _); [apply outcome_leaf in H; discriminate|].
    set (passed := filter _ _) in H.
    unfold mbind, get, modify, lift, ret in H. cbn [tbind fst snd] in H.
    apply outcome_tbind in H. destruct H as ([[[ou tr]|e] s1] & H1 & H2); cbn [fst snd] in H2.
    2:{ apply outcome_leaf in H2. discriminate. }
    pose proof (proj1 (proj2 (proj2 (exec_inv _ _ _ _ _ _ wf_nil H1)))) as Hcl.
    destruct (log_joint _ _ _ _ tr) as [lw|e]; cbn [tbind fst snd] in H2; apply outcome_leaf in H2; [|discriminate].
    injection H2 as <- <-. cbn [out_trace out_output].
    destruct (exec_statements _ _ (Hp c passed) _ _ _ _ _ wf_nil H1) as (es & new & Hx & -> & W & HF & Hv).
    exists passed, es. split; [exact Hcl|]. split; [exact Hx|]. auto.
  Qed.

  Lemma recorded_sum sd bd P Q es (tr : trace L) : Forall2 recorded es tr ->
    (forall e a r, In e es -> In (a, r) tr -> recorded e (a, r) -> P a r = Q e) ->
    logp_sum sd bd P tr = statements_logp sd bd Q es.
  Proof.
    intros HF. unfold logp_sum, statements_logp. induction HF as [|e [a r] es tr Hr HF IH]; intros HP; [reflexivity|].
    cbn [filter fst snd]. rewrite (HP e a r) by (cbn; auto). specialize (IH (fun e' a' r' H1 H2 H3 => HP e' a' r' (or_intror H1) (or_intror H2) H3)).
    destruct (Q e); [|exact IH]. cbn [map fst snd]. unfold tsum in *. cbn [fold_right]. rewrite IH.
    destruct Hr as (_ & Ev & _ & El & _). cbn [snd] in *. rewrite El. reflexivity.
  Qed.
End Proofs.

(** ** The weight of a Program, statement by statement
    A returned call has executed some statements of the model on the substituted values.  The
    trace records exactly those, in order, and the weight is the sum of the log-densities of
    the observe statements and of the sample statements whose value was substituted by a
    latent variable. *)
Theorem C01_statements : forall (L : lib) (HL : lib_laws L) oid sg (m : pyval (T L) -> dict (pyval (T L)) -> model L) c kws s o s',
  (forall c kws, plain (m c kws)) -> wf_st s ->
  returns (run (IProg oid sg m) c kws) s o s' ->
  exists kws' es, calls s' = calls s ++ [mkCall oid c kws' (get_cond oid s)] /\
    executes (value_in (get_cond oid s)) (m c kws') es (out_output o) /\
    Forall2 recorded es (out_trace o) /\ NoDup (map ev_addr es) /\
    out_lw o = statements_logp (kwarg "sample_dims" VNone kws) (kwarg "batch_dim" VNone kws)
      (fun e => is_given e || (is_substituted e && latent_in_opt (get_cond oid s) (ev_addr e))) es.
Proof.
  intros L HL oid sg m c kws s o s' Hp Hs H.
  destruct (forward_statements _ _ _ _ _ _ _ _ Hp H) as (kws' & es & Hc & Hx & W & HF & Hv).
  destruct (forward_weight L HL oid sg m c kws s o s' Hs H) as [_ Hw].
  exists kws', es. split; [exact Hc|]. split; [exact Hx|]. split; [exact HF|]. split.
  - replace (map ev_addr es) with (dkeys (out_trace o)); [exact W|]. clear -HF.
    induction HF as [|e [a r] es tr (E & _) _ IH]; [reflexivity|]. unfold dkeys in *. cbn in *. rewrite IH, E. reflexivity.
  - rewrite Hw. eapply recorded_sum; [exact HF|]. intros e a r He Hr (Ea & _ & _ & _ & Epr). cbn [fst snd] in *. subst a.
    unfold is_given, is_substituted, is_observed. rewrite Epr. specialize (Hv e He).
    destruct (ev_from e); cbn [prov_eqb orb andb]; try reflexivity.
    specialize (Hv ltac:(discriminate)). unfold latent_in_opt, latent_in, value_in in *.
    destruct (get_cond oid s) as [ct|]; [|reflexivity]. destruct (dget (ev_addr e) ct); [discriminate|reflexivity].
Qed.
Print Assumptions C01_statements.

(** Without substitution the weight is the sum over the observe statements, every sample
    statement draws its value, and a model that observes nothing has weight 0.0. *)
Theorem C02_statements : forall (L : lib) (HL : lib_laws L) oid sg (m : pyval (T L) -> dict (pyval (T L)) -> model L) c kws s o s',
  (forall c kws, plain (m c kws)) -> get_cond oid s = None ->
  returns (run (IProg oid sg m) c kws) s o s' ->
  exists kws' es, executes (fun _ => None) (m c kws') es (out_output o) /\ Forall2 recorded es (out_trace o) /\
    (forall e, In e es -> ev_from e = Given \/ ev_from e = Drawn) /\
    out_lw o = statements_logp (kwarg "sample_dims" VNone kws) (kwarg "batch_dim" VNone kws) is_given es /\
    ((forall e, In e es -> ev_from e <> Given) -> out_lw o = tzero L).
Proof.
  intros L HL oid sg m c kws s o s' Hp Hn H.
  destruct (forward_statements _ _ _ _ _ _ _ _ Hp H) as (kws' & es & Hc & Hx & W & HF & Hv). rewrite Hn in *.
  destruct (forward_unconditioned L HL oid sg m c kws s o s' Hn H) as [Hw Hw0].
  exists kws', es. split; [exact Hx|]. split; [exact HF|]. split; [|split].
  - intros e He. specialize (Hv e He). destruct (ev_from e); auto. specialize (Hv ltac:(discriminate)). discriminate.
  - rewrite Hw. eapply recorded_sum; [exact HF|]. intros e a r He Hr (Ea & _ & _ & _ & Epr). cbn [snd] in Epr.
    unfold is_observed, is_given. rewrite Epr. destruct (ev_from e); reflexivity.
  - intros Hg. apply Hw0. intros a r Hin Hpr. clear -HF Hg Hin Hpr.
    induction HF as [|e [b r'] es tr (_ & _ & _ & _ & Epr) _ IH]; [exact Hin|]. destruct Hin as [E|Hin].
    + injection E as -> ->. cbn [snd] in Epr. rewrite Hpr in Epr. apply (Hg e); [left; reflexivity|]. destruct (ev_from e); congruence.
    + apply IH; [|exact Hin]. intros e' He'. apply Hg. right. exact He'.
Qed.
Print Assumptions C02_statements.

(** If every sample statement takes its value from a latent variable of the substituted trace,
    the weight is the log-density of all statements. *)
Theorem C04_statements : forall (L : lib) (HL : lib_laws L) oid sg (m : pyval (T L) -> dict (pyval (T L)) -> model L) c kws s o s' ct,
  (forall c kws, plain (m c kws)) -> wf_st s -> get_cond oid s = Some ct ->
  returns (run (IProg oid sg m) c kws) s o s' ->
  exists kws' es, executes (value_in (Some ct)) (m c kws') es (out_output o) /\ Forall2 recorded es (out_trace o) /\
    ((forall e, In e es -> ev_from e <> Given -> latent_in ct (ev_addr e) = true) ->
     out_lw o = statements_logp (kwarg "sample_dims" VNone kws) (kwarg "batch_dim" VNone kws) (fun _ => true) es).
Proof.
  intros L HL oid sg m c kws s o s' ct Hp Hs Hct H.
  destruct (forward_statements _ _ _ _ _ _ _ _ Hp H) as (kws' & es & Hc & Hx & W & HF & Hv). rewrite Hct in *.
  destruct (forward_weight L HL oid sg m c kws s o s' Hs H) as [_ Hw].
  exists kws', es. split; [exact Hx|]. split; [exact HF|]. intros Hall.
  rewrite Hw, Hct. eapply recorded_sum; [exact HF|]. intros e a r He Hr (Ea & _ & _ & _ & Epr). cbn [fst snd] in *. subst a.
  unfold is_observed. rewrite Epr. specialize (Hall e He). cbn [latent_in_opt].
  destruct (ev_from e); cbn [prov_eqb orb]; try reflexivity; apply Hall; discriminate.
Qed.
Print Assumptions C04_statements.

(** instances: x ~ 3; observe y = 7 under 5 *)
Example C01_statements_plain : forall c kws, plain (xy_model c kws).
Proof. intros c kws. apply (plain_var (L := ZL) _ _ None). intros x. apply (plain_var (L := ZL) _ _ (Some (zten 7))). intros y. constructor. Qed.
Example C01_statements_case : exists o s', returns (run (L := ZL) (IProg (L := ZL) 1 sig_model xy_model) VNone []) (st_cond 1 [("x", node 1)]) o s' /\
  executes (L := ZL) (value_in (L := ZL) (Some [("x", node 1)])) (xy_model VNone []) [mkEvent (L := ZL) "x" 3%Z (zten 1) Substituted; mkEvent (L := ZL) "y" 5%Z (zten 7) Given] (out_output o).
Proof.
  eexists _, _. split; [apply (walk_outcome (L := ZL) _ []); reflexivity|]. cbn.
  apply (ex_substituted (L := ZL)); [reflexivity|]. apply (ex_observe (L := ZL)). constructor.
Qed.
