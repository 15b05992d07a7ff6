(** Preservation and inversion lemmas for [run]. *)
From Verif Require Export RunFacts.

Section Pres.
  Context {L : lib}.

  Definition pres {A} (R : st L -> st L -> Prop) (m : M L A) : Prop :=
    forall s r s', outcome (m s) (r, s') -> R s s'.

  Section WithR.
    Context (R : st L -> st L -> Prop) (Rrefl : forall s, R s s)
            (Rtrans : forall a b c, R a b -> R b c -> R a c).

    Lemma pres_ret {A} (a : A) : pres R (ret a).
    Proof. intros s r s' H. apply outcome_leaf in H. injection H as _ <-. apply Rrefl. Qed.
    Lemma pres_raise {A} e : pres R (raise (A := A) e).
    Proof. intros s r s' H. apply outcome_leaf in H. injection H as _ <-. apply Rrefl. Qed.
    Lemma pres_lift {A} (x : res A) : pres R (lift x).
    Proof. intros s r s' H. apply outcome_leaf in H. injection H as _ <-. apply Rrefl. Qed.
    Lemma pres_get : pres R get.
    Proof. intros s r s' H. apply outcome_leaf in H. injection H as _ <-. apply Rrefl. Qed.
    Lemma pres_massert b : pres R (massert b).
    Proof. destruct b; [apply pres_ret|apply pres_raise]. Qed.
    Lemma pres_mbind {A B} (m : M L A) (f : A -> M L B) :
      pres R m -> (forall a, pres R (f a)) -> pres R (mbind m f).
    Proof.
      intros Hm Hf s r s' H. apply outcome_mbind in H. destruct H as [(a & s1 & H1 & H2)|(e & -> & H1)].
      - eapply Rtrans; [apply (Hm _ _ _ H1)|apply (Hf _ _ _ _ H2)].
      - apply (Hm _ _ _ H1).
    Qed.
    Lemma pres_mdispatch {A} t kws (k : dict (pyval (T L)) -> M L A) :
      (forall kws', pres R (k kws')) -> pres R (mdispatch t kws k).
    Proof. intros H. unfold mdispatch. destruct (clash ["fn"] kws); [apply pres_raise|apply H]. Qed.

    Context (P : nat -> Prop).
    Context (Hfwd : forall oid sg m c kws, pres R (forward oid sg m c kws))
            (Hwith : forall oid t A (m : M L A), P oid -> pres R m -> pres R (with_substitution oid t m))
            (Hupd : forall tr tr2, pres R (resample_update tr tr2)).

    Lemma run_pres t : (forall i, In i (substituted t) -> P i) -> forall c kws, pres R (run t c kws).
    Proof.
      induction t as [oid sg m|oid q IHq ix l0 rs dbg|oid p IHp f IHf o|oid q2 IH2 q1 IH1 o|oid p IHp q IHq o tf nr];
        intros HP c kws; cbn [run].
      - apply Hfwd.
      - cbn in HP. apply pres_mbind; [apply pres_lift|intros b].
        apply pres_mbind; [apply IHq, HP|intros q_out].
        apply pres_mbind.
        { intros s r s' H. apply outcome_tbind in H. destruct H as (x & _ & H).
          apply outcome_leaf in H. injection H as _ <-. apply Rrefl. }
        intros [tr2 lw2]. cbn [fst snd].
        apply pres_mbind; [destruct (out_output q_out); try apply pres_raise; apply pres_lift|intros c2].
        apply pres_mbind; [apply Hupd|intros _].
        apply pres_mbind; [apply pres_lift|intros r]. apply pres_ret.
      - cbn in HP. apply pres_mbind; [apply pres_lift|intros b].
        apply pres_mbind; [apply pres_get|intros s0].
        apply pres_mbind.
        { apply Hwith; [apply HP; tauto|]. apply Hwith; [apply HP; tauto|].
          apply pres_mbind; [apply pres_mdispatch; intros kws'; apply IHp; intros i Hi; apply HP; rewrite in_app_iff; tauto|].
          intros p_out. apply pres_mbind; [apply pres_mdispatch; intros kws'; apply IHf; intros i Hi; apply HP; rewrite in_app_iff; tauto|].
          intros f_out. apply pres_ret. }
        intros [p_out f_out].
        apply pres_mbind; [apply pres_get|intros s1].
        apply pres_mbind.
        { destruct (get_cond oid s1); [apply pres_massert|].
          apply pres_mbind; [apply pres_lift|intros z].
          apply pres_mbind; [apply pres_massert|intros _]. apply pres_massert. }
        intros _. apply pres_mbind; [apply pres_massert|intros _].
        apply pres_mbind; [apply pres_lift|intros lu].
        apply pres_mbind; [apply pres_lift|intros tr].
        apply pres_mbind; [apply pres_lift|intros r]. apply pres_ret.
      - cbn in HP. apply pres_mbind; [apply pres_lift|intros b].
        apply pres_mbind; [apply pres_mdispatch; intros kws'; apply IH1; intros i Hi; apply HP; rewrite in_app_iff; tauto|].
        intros o1.
        apply pres_mbind; [apply pres_mdispatch; intros kws'; apply IH2; intros i Hi; apply HP; rewrite in_app_iff; tauto|].
        intros o2. apply pres_mbind; [apply pres_lift|intros tr].
        apply pres_mbind; [apply pres_massert|intros _].
        apply pres_mbind; [apply pres_lift|intros r]. apply pres_ret.
      - cbn in HP. apply pres_mbind; [apply pres_massert|intros _].
        apply pres_mbind; [apply pres_lift|intros b].
        apply pres_mbind; [apply pres_mdispatch; intros kws'; apply IHq; intros i Hi; apply HP; rewrite in_app_iff; tauto|].
        intros q_out. apply pres_mbind.
        { apply Hwith; [apply HP; tauto|].
          apply pres_mdispatch; intros kws'; apply IHp; intros i Hi; apply HP; rewrite in_app_iff; tauto. }
        intros p_out. apply pres_mbind; [apply pres_lift|intros qt].
        apply pres_mbind; [apply pres_lift|intros lu].
        apply pres_mbind; [apply pres_lift|intros [mo mt]].
        apply pres_mbind; [apply pres_lift|intros tr].
        apply pres_mbind; [destruct (is_tensor L _); [apply pres_ret|apply pres_raise]|intros lw].
        apply pres_mbind; [apply pres_lift|intros pt].
        apply pres_mbind; [apply pres_lift|intros tt'].
        apply pres_mbind; [apply pres_lift|intros fw].
        apply pres_mbind; [apply pres_lift|intros r]. apply pres_ret.
    Qed.
  End WithR.

  (** with_substitution, any way out: the inner block ran from some conditioned state, or the
      copy raised *)
  Lemma outcome_with_gen {A} oid (t : option (trace L)) (m : M L A) s r s' :
    outcome (with_substitution oid t m s) (r, s') ->
    (exists e, r = Err e /\ s' = s) \/
    (exists t' s1, (t' = None <-> t = None) /\ (forall tr, t' = Some tr -> wf_dict tr) /\
                   outcome (m (set_cond oid t' s)) (r, s1) /\ s' = set_cond oid None s1).
  Proof.
    unfold with_substitution. intros H. apply outcome_mbind in H.
    destruct H as [(t' & s0 & H1 & H2)|(e & -> & H1)].
    - right. exists t'.
      assert (E : (t' = None <-> t = None) /\ (forall tr, t' = Some tr -> wf_dict tr) /\ s0 = s).
      { destruct t as [tr|].
        - apply ret_lift in H1. destruct H1 as [H1 <-].
          destruct (copytraces no_excl NoOverlaps [tr]) as [tr'|e] eqn:Ec; cbn in H1; [|discriminate].
          injection H1 as <-. split; [split; discriminate|]. split; [|reflexivity].
          intros x [= <-]. eapply copytraces_wf; exact Ec.
        - apply ret_ret in H1. destruct H1 as [<- <-]. split; [tauto|]. split; [discriminate|reflexivity]. }
      destruct E as (E1 & E2 & ->).
      apply outcome_mbind in H2. destruct H2 as [(u & s2 & H2 & H3)|(e & -> & H2)].
      + apply ret_modify in H2. subst s2. apply outcome_mfinally in H3. destruct H3 as (s1 & H3 & ->).
        exists s1. tauto.
      + unfold modify in H2. apply outcome_leaf in H2. discriminate.
    - left. exists e. split; [reflexivity|]. destruct t as [tr|].
      + unfold lift in H1. apply outcome_leaf in H1. injection H1 as _ ->. reflexivity.
      + unfold ret in H1. apply outcome_leaf in H1. discriminate.
  Qed.

  (** Program.forward, any way out *)
  Lemma forward_state oid sg m c kws s r s' :
    outcome (forward (L := L) oid sg m c kws s) (r, s') -> conds s' = conds s /\ hook s' = hook s.
  Proof.
    unfold forward. destruct (clash ["self"] kws || _).
    - intros H. apply outcome_leaf in H. injection H as _ <-. tauto.
    - intros H. apply outcome_mbind in H. destruct H as [(s0 & s1 & H1 & H2)|(e & -> & H1)].
      2:{ apply outcome_leaf in H1. discriminate. }
      apply ret_get in H1. destruct H1 as [-> ->].
      apply outcome_mbind in H2. destruct H2 as [(u & s2 & H1 & H2)|(e & -> & H1)].
      2:{ apply outcome_leaf in H1. discriminate. }
      apply ret_modify in H1. subst s2.
      apply outcome_mbind in H2. destruct H2 as [([o tr] & s3 & H1 & H2)|(e & -> & H1)].
      + apply exec_inv in H1; [|apply wf_nil]. destruct H1 as (Hc & Hh & _). cbn in Hc, Hh.
        rewrite <- Hc, <- Hh.
        apply outcome_mbind in H2. destruct H2 as [(lw & s4 & H1 & H2)|(e & -> & H1)].
        * apply ret_lift in H1. destruct H1 as [_ <-]. apply ret_ret in H2 || apply outcome_leaf in H2.
          injection H2 as _ <-. tauto.
        * apply outcome_leaf in H1. injection H1 as _ <-. tauto.
      + apply exec_inv in H1; [|apply wf_nil]. destruct H1 as (Hc & Hh & _). tauto.
  Qed.

  Lemma run_wf_st t c kws : forall s r s', outcome (run (L := L) t c kws s) (r, s') -> wf_st s -> wf_st s'.
  Proof.
    apply (run_pres (fun s s' => wf_st s -> wf_st s')) with (P := fun _ => True).
    - intros s H. exact H.
    - intros a b d H1 H2 H. auto.
    - intros oid sg m c' kws' s r s' H Hwf. apply forward_state in H. destruct H as [H _].
      unfold wf_st, get_cond in *. rewrite H. exact Hwf.
    - intros oid t0 A m _ Hm s r s' H Hwf. apply outcome_with_gen in H.
      destruct H as [(e & -> & ->)|(t' & s1 & _ & Ht & H & ->)]; [exact Hwf|].
      apply wf_set_cond; [|discriminate]. eapply Hm; [exact H|]. apply wf_set_cond; assumption.
    - intros tr tr2 s r s' H Hwf. unfold resample_update in H. destruct (hook s (store s) tr tr2).
      + apply outcome_leaf in H. injection H as _ <-. exact Hwf.
      + apply outcome_leaf in H. injection H as _ <-. exact Hwf.
    - intros i _. exact I.
  Qed.

  (** *** Inversions of returning calls *)
  Lemma forward_returns oid sg m c kws s o s' :
    returns (forward (L := L) oid sg m c kws) s o s' ->
    exists kws' out tr lw s1,
      outcome (exec (get_cond oid s) (m c kws') [] s1) (Ok (out, tr), s') /\
      conds s1 = conds s /\ store s1 = store s /\ hook s1 = hook s /\
      calls s1 = calls s ++ [mkCall oid c kws' (get_cond oid s)] /\
      wf_dict tr /\
      log_joint (kwarg "sample_dims" VNone kws) (kwarg "batch_dim" VNone kws)
        (kwarg "reparameterized" (VBool true) kws)
        (sdiff (dkeys tr) (sdiff (latent_addrs tr)
           (match get_cond oid s with Some ct => latent_addrs ct | None => [] end))) tr = Ok lw /\
      o = mkOut tr lw out TyProgram None None None None [].
  Proof.
    unfold forward. destruct (clash ["self"] kws || _).
    - intros H. apply ret_raise in H. tauto.
    - set (passed := filter _ _). intros H.
      apply ret_mbind in H. destruct H as (s0 & s1 & H1 & H). apply ret_get in H1. destruct H1 as [-> ->].
      apply ret_mbind in H. destruct H as (u & s2 & H1 & H). apply ret_modify in H1. subst s2.
      apply ret_mbind in H. destruct H as ([out tr] & s3 & H1 & H).
      apply ret_mbind in H. destruct H as (lw & s4 & H2 & H). apply ret_lift in H2. destruct H2 as [H2 <-].
      apply ret_ret in H. destruct H as [<- <-].
      exists passed, out, tr, lw, (log_call (mkCall oid c passed (get_cond oid s)) s).
      split; [exact H1|]. do 4 (split; [reflexivity|]).
      split; [|split; [exact H2|reflexivity]].
      apply exec_inv in H1; [|apply wf_nil]. destruct H1 as (_ & _ & _ & Hw). eapply Hw; reflexivity.
  Qed.

  Lemma massert_inter (a b : list string) s u s' :
    returns (L := L) (massert (match sinter a b with [] => true | _ => false end)) s u s' ->
    (forall k, In k a -> ~ In k b) /\ s = s'.
  Proof.
    intros H. apply ret_massert in H. destruct H as [H ->]. split; [|reflexivity].
    apply sinter_nil. destruct (sinter a b); [reflexivity|discriminate].
  Qed.

  (** the weight of the result may be any, loss and debug do not affect the other fields *)
  Lemma add_loss_ok lf l0 (child o r : out L) :
    add_loss lf l0 child o = Ok r ->
    exists l, lf o (match out_loss child with Some l => l
                    | None => match l0 with Some l => l | None => tzero L end end) = Ok l /\
              r = with_loss o l.
  Proof.
    unfold add_loss. set (l1 := match out_loss child with Some l => l | None => _ end).
    destruct (lf o l1) as [l|e] eqn:E; cbn; [|discriminate].
    intros [= <-]. exists l. split; reflexivity.
  Qed.

  Lemma clash_sub_kwargs self_ix (kws : dict (pyval (T L))) n :
    ~ In n reserved -> clash [n] (sub_kwargs self_ix kws) = clash [n] kws.
  Proof.
    intros Hn. unfold clash, sub_kwargs. rewrite existsb_app. cbn [existsb fst app].
    assert (H0 : forall k, In k reserved -> mem k [n] = false).
    { intros k Hk. apply mem_not_In. intros [E|[]]. subst. contradiction. }
    rewrite !H0 by (cbn; tauto). cbn [orb].
    assert (Hf : forall d : dict (pyval (T L)), existsb (fun kv => mem (fst kv) [n])
       (filter (fun kv => negb (mem (fst kv) ["sample_dims"; "batch_dim"; "_debug"; "reparameterized"; "ix"])) d)
       = existsb (fun kv => mem (fst kv) [n]) d).
    { induction d as [|[k v] d IH]; [reflexivity|]. cbn [filter fst].
      destruct (mem k ["sample_dims"; "batch_dim"; "_debug"; "reparameterized"; "ix"]) eqn:E; cbn [negb].
      - rewrite IH. cbn [existsb fst]. rewrite H0; [reflexivity|apply mem_In, E].
      - cbn [existsb fst]. rewrite IH. reflexivity. }
    apply Hf.
  Qed.

  Lemma run_compose_returns oid q2 q1 o c kws s r s' :
    wf_dict kws -> returns (run (L := L) (ICompose oid q2 q1 o) c kws) s r s' ->
    exists o1 s1 o2 tr l,
      clash ["self"; "c"] kws = false /\ clash ["fn"] kws = false /\
      returns (run q1 c (sub_kwargs (in_ix o) kws)) s o1 s1 /\
      returns (run q2 (out_output o1) (sub_kwargs (in_ix o) kws)) s1 o2 s' /\
      (forall k, In k (dkeys (out_trace o2)) -> ~ In k (dkeys (out_trace o1))) /\
      copytraces no_excl LastWriteWins [out_trace o2; out_trace o1] = Ok tr /\
      (let r0 := mkOut tr (tadd L (out_lw o1) (out_lw o2)) (out_output o2) TyCompose
                       (Some (if is_none (in_ix o) then kwarg "ix" VNone kws else in_ix o)) None None None [] in
       in_loss o r0 (match out_loss o1 with Some l => l | None => match in_loss0 o with Some l => l | None => tzero L end end) = Ok l /\
       r = add_subs (truthy (kwarg "_debug" (VBool false) kws) || in_debug o) [("q1_out", o1); ("q2_out", o2)] (with_loss r0 l)).
  Proof.
    intros Hkw H. cbn [run] in H.
    apply ret_mbind in H. destruct H as (b & s0 & Hb & H). apply ret_lift in Hb. destruct Hb as [Hb <-].
    rewrite (sub_kwargs_eq kws b (in_ix o) Hb) in H.
    apply ret_mbind in H. destruct H as (o1 & s1 & H1 & H).
    apply ret_mbind in H. destruct H as (o2 & s2 & H2 & H).
    apply ret_mbind in H. destruct H as (tr & s3 & Ht & H). apply ret_lift in Ht. destruct Ht as [Ht <-].
    apply ret_mbind in H. destruct H as (u & s4 & Hd & H). apply massert_inter in Hd. destruct Hd as [Hd <-].
    apply ret_mbind in H. destruct H as (r1 & s5 & Hl & H). apply ret_lift in Hl. destruct Hl as [Hl <-].
    apply ret_ret in H. destruct H as [<- <-].
    apply add_loss_ok in Hl. destruct Hl as (l & Hl & ->).
    pose proof (wf_sub_kwargs (in_ix o) kws Hkw) as Hwk.
    apply ret_mdispatch in H1; [|exact Hwk]. destruct H1 as [Hfn H1].
    apply ret_mdispatch in H2; [|exact Hwk]. destruct H2 as [_ H2].
    rewrite clash_sub_kwargs in Hfn by (cbn; intuition discriminate).
    unfold bind_call in Hb. destruct (clash ["self"; "c"] kws) eqn:Ec; [discriminate|]. injection Hb as <-.
    exists o1, s1, o2, tr, l. cbn [b_debug b_ix] in *. unfold resolve_ix in *. cbn zeta.
    split; [reflexivity|]. split; [exact Hfn|]. split; [exact H1|]. split; [exact H2|].
    split; [exact Hd|]. split; [exact Ht|]. split; [exact Hl|reflexivity].
  Qed.

  Lemma run_resample_returns oid q self_ix l0 rs dbg c kws s r s' :
    wf_dict kws -> returns (run (L := L) (IResample oid q self_ix l0 rs dbg) c kws) s r s' ->
    exists qo s1 items lw2 c1 c2 st2,
      clash ["self"; "c"] kws = false /\
      returns (run q c (sub_kwargs self_ix kws)) s qo s1 /\
      outcome (rs_call rs (out_trace qo) (out_lw qo)
        (filter (fun kv => check_passable_kwarg (fst kv) (rs_sig rs))
           [("sample_dims", kwarg "sample_dims" VNone kws); ("batch_dim", kwarg "batch_dim" VNone kws);
            ("reparameterized", kwarg "reparameterized" (VBool true) kws)])) (Ok (items, lw2)) /\
      out_output qo = VDict c1 /\ resample_output c1 (as_trace items) = Ok c2 /\
      hook s1 (store s1) (out_trace qo) (as_trace items) = Ok st2 /\
      s' = set_store st2 s1 /\
      r = add_subs (truthy (kwarg "_debug" (VBool false) kws) || dbg) [("q_out", qo)]
            (mkOut (as_trace items) lw2 (VDict c2) TyResample
                       (Some (if is_none self_ix then kwarg "ix" VNone kws else self_ix))
                       (Some (match out_loss qo with Some l => l | None => match l0 with Some l => l | None => tzero L end end))
                       None None []).
  Proof.
    intros Hkw H. cbn [run] in H.
    apply ret_mbind in H. destruct H as (b & s0 & Hb & H). apply ret_lift in Hb. destruct Hb as [Hb <-].
    rewrite (sub_kwargs_eq kws b self_ix Hb) in H.
    apply ret_mbind in H. destruct H as (qo & s1 & H1 & H).
    apply ret_mbind in H. destruct H as ([items lw2] & s2 & H2 & H).
    unfold returns in H2. apply outcome_tbind in H2. destruct H2 as (x & H2 & Hx).
    apply outcome_leaf in Hx. injection Hx as -> ->. cbn [fst snd] in H.
    apply ret_mbind in H. destruct H as (c2 & s3 & H3 & H).
    apply ret_mbind in H. destruct H as (u & s4 & H4 & H).
    apply ret_mbind in H. destruct H as (r1 & s5 & Hl & H). apply ret_lift in Hl. destruct Hl as [Hl <-].
    apply ret_ret in H. destruct H as [<- <-].
    apply add_loss_ok in Hl. destruct Hl as (l & Hl & ->). unfold default_loss in Hl. injection Hl as <-.
    destruct (out_output qo) as [| | | | | |c1|] eqn:Eo; try (apply ret_raise in H3; tauto).
    apply ret_lift in H3. destruct H3 as [H3 <-].
    unfold returns, resample_update in H4.
    destruct (hook s2 (store s2) (out_trace qo) (as_trace items)) as [st2|e] eqn:Eh;
      apply outcome_leaf in H4; [|discriminate]. injection H4 as _ <-.
    unfold bind_call in Hb. destruct (clash ["self"; "c"] kws) eqn:Ec; [discriminate|]. injection Hb as <-.
    exists qo, s2, items, lw2, c1, c2, st2. cbn [b_debug b_ix b_sd b_bd b_rep] in *. unfold resolve_ix in *.
    split; [reflexivity|]. split; [exact H1|]. split; [exact H2|]. split; [exact Eo|].
    split; [exact H3|]. split; [exact Eh|]. split; [reflexivity|]. reflexivity.
  Qed.

  Lemma run_extend_returns oid p f o c kws s r s' :
    wf_dict kws -> wf_st s -> returns (run (L := L) (IExtend oid p f o) c kws) s r s' ->
    exists po s1 fo s2 lu tr l,
      let kws' := sub_kwargs (in_ix o) kws in
      let cond := get_cond oid s in
      clash ["self"; "c"] kws = false /\ clash ["fn"] kws = false /\
      returns (run p c kws') (set_cond (oid_of f) cond (set_cond (oid_of p) cond s)) po s1 /\
      returns (run f (out_output po) kws') s1 fo s2 /\
      s' = set_cond (oid_of p) None (set_cond (oid_of f) None s2) /\
      (get_cond oid s' = None -> eq_zero L (out_lw fo) = Ok true /\
          forall k v, In (k, v) (out_trace fo) -> rv_prov v = SAMPLED) /\
      (get_cond oid s' <> None -> forall k v, In (k, v) (out_trace fo) -> rv_prov v <> OBSERVED) /\
      (forall k, In k (dkeys (out_trace fo)) -> ~ In k (dkeys (out_trace po))) /\
      log_joint (kwarg "sample_dims" VNone kws) (kwarg "batch_dim" VNone kws)
        (kwarg "reparameterized" (VBool true) kws) (latent_addrs (out_trace fo)) (out_trace fo) = Ok lu /\
      copytraces no_excl FirstWriteWins [out_trace po; out_trace fo] = Ok tr /\
      (let r0 := mkOut tr (tadd L (out_lw po) lu) (out_output fo) TyExtend
                       (Some (if is_none (in_ix o) then kwarg "ix" VNone kws else in_ix o)) None
                       (Some (dkeys (out_trace po), out_output po)) None [] in
       in_loss o r0 (match out_loss po with Some l => l | None => match in_loss0 o with Some l => l | None => tzero L end end) = Ok l /\
       r = add_subs (truthy (kwarg "_debug" (VBool false) kws) || in_debug o) [("p_out", po); ("f_out", fo)] (with_loss r0 l)).
  Proof.
    intros Hkw Hst H. cbn [run] in H.
    apply ret_mbind in H. destruct H as (b & s0 & Hb & H). apply ret_lift in Hb. destruct Hb as [Hb <-].
    rewrite (sub_kwargs_eq kws b (in_ix o) Hb) in H.
    apply ret_mbind in H. destruct H as (s0 & s1' & Hg & H). apply ret_get in Hg. destruct Hg as [-> ->].
    apply ret_mbind in H. destruct H as ([po fo] & s3 & Hw & H).
    apply ret_mbind in H. destruct H as (s4 & s4' & Hg & H). apply ret_get in Hg. destruct Hg as [-> ->].
    apply ret_mbind in H. destruct H as (u & s5 & Ha & H).
    apply ret_mbind in H. destruct H as (u2 & s6 & Hd & H). apply massert_inter in Hd. destruct Hd as [Hd <-].
    apply ret_mbind in H. destruct H as (lu & s7 & Hlu & H). apply ret_lift in Hlu. destruct Hlu as [Hlu <-].
    apply ret_mbind in H. destruct H as (tr & s8 & Ht & H). apply ret_lift in Ht. destruct Ht as [Ht <-].
    apply ret_mbind in H. destruct H as (r1 & s9 & Hl & H). apply ret_lift in Hl. destruct Hl as [Hl <-].
    apply ret_ret in H. destruct H as [<- <-].
    apply add_loss_ok in Hl. destruct Hl as (l & Hl & ->).
    pose proof (wf_sub_kwargs (in_ix o) kws Hkw) as Hwk.
    apply ret_with in Hw; [|intros t Ht'; eapply Hst; exact Ht']. destruct Hw as (s10 & Hw & Es3).
    apply ret_with in Hw; [|intros t Ht'; eapply Hst; exact Ht']. destruct Hw as (s11 & Hw & Es10).
    apply ret_mbind in Hw. destruct Hw as (po' & s12 & H1 & Hw).
    apply ret_mbind in Hw. destruct Hw as (fo' & s13 & H2 & Hw).
    apply ret_ret in Hw. destruct Hw as [E <-]. injection E as -> ->.
    apply ret_mdispatch in H1; [|exact Hwk]. destruct H1 as [Hfn H1].
    apply ret_mdispatch in H2; [|exact Hwk]. destruct H2 as [_ H2].
    rewrite clash_sub_kwargs in Hfn by (cbn; intuition discriminate).
    assert (Hs : s5 = s3 /\ (get_cond oid s3 = None -> eq_zero L (out_lw fo) = Ok true /\
          forall k v, In (k, v) (out_trace fo) -> rv_prov v = SAMPLED) /\
      (get_cond oid s3 <> None -> forall k v, In (k, v) (out_trace fo) -> rv_prov v <> OBSERVED)).
    { destruct (get_cond oid s3) as [ct|].
      - apply ret_massert in Ha. destruct Ha as [Ha <-]. split; [reflexivity|]. split; [discriminate|].
        intros _ k v Hin E. rewrite forallb_forall in Ha. specialize (Ha _ Hin). cbn in Ha.
        unfold is_observed in Ha. rewrite E in Ha. discriminate.
      - apply ret_mbind in Ha. destruct Ha as (z & s20 & Hz & Ha). apply ret_lift in Hz. destruct Hz as [Hz <-].
        apply ret_mbind in Ha. destruct Ha as (z2 & s21 & Hz2 & Ha). apply ret_massert in Hz2. destruct Hz2 as [-> <-].
        apply ret_massert in Ha. destruct Ha as [Ha <-]. split; [reflexivity|]. split; [|congruence].
        intros _. split; [exact Hz|]. intros k v Hin. rewrite forallb_forall in Ha. specialize (Ha _ Hin). cbn in Ha.
        unfold is_observed, is_reused in Ha. destruct (rv_prov v); [reflexivity|discriminate|discriminate]. }
    destruct Hs as (-> & Ha1 & Ha2).
    unfold bind_call in Hb. destruct (clash ["self"; "c"] kws) eqn:Ec; [discriminate|]. injection Hb as <-.
    exists po, s12, fo, s13, lu, tr, l. cbn [b_debug b_ix b_sd b_bd b_rep] in *. unfold resolve_ix in *. cbn zeta.
    split; [reflexivity|]. split; [exact Hfn|]. split; [exact H1|]. split; [exact H2|].
    split; [rewrite Es3, Es10; reflexivity|]. split; [exact Ha1|]. split; [exact Ha2|].
    split; [exact Hd|]. split; [exact Hlu|]. split; [exact Ht|]. split; [exact Hl|reflexivity].
  Qed.

  Lemma run_propose_returns oid p q o tf nr c kws s r s' :
    wf_dict kws -> 
    (forall qo s1, returns (run q c (sub_kwargs (in_ix o) kws)) s qo s1 -> wf_dict (out_trace qo)) ->
    returns (run (L := L) (IPropose oid p q o tf nr) c kws) s r s' ->
    exists qo s1 po s2 qt lu mo mt tr pt tt fw l,
      let kws' := sub_kwargs (in_ix o) kws in
      let ix := if is_none (in_ix o) then kwarg "ix" VNone kws else in_ix o in
      let nodes := sdiff (dkeys (out_trace qo)) (sdiff (latent_addrs (out_trace qo)) (latent_addrs (out_trace po))) in
      let lv := tsub L (out_lw po) lu in
      is_compose p = false /\ clash ["self"; "c"] kws = false /\ clash ["fn"] kws = false /\
      returns (run q c kws') s qo s1 /\
      returns (run p c kws') (set_cond (oid_of p) (Some (out_trace qo)) s1) po s2 /\
      s' = set_cond (oid_of p) None s2 /\
      apply_transf tf (out_trace qo)
        [("_debug", kwarg "_debug" (VBool false) kws); ("ix", ix); ("sample_dims", kwarg "sample_dims" VNone kws);
         ("batch_dim", kwarg "batch_dim" VNone kws); ("reparameterized", kwarg "reparameterized" (VBool true) kws)] = Ok qt /\
      log_joint (kwarg "sample_dims" VNone kws) (kwarg "batch_dim" VNone kws)
        (kwarg "reparameterized" (VBool true) kws) nodes qt = Ok lu /\
      marginalize p po = Ok (mo, mt) /\
      (if nr then Ok mt else rerun_with_detached_values mt) = Ok tr /\
      is_tensor L (tadd L (out_lw qo) lv) = true /\
      copytraces no_excl NoOverlaps [out_trace qo] = Ok pt /\
      copytraces no_excl NoOverlaps [out_trace po] = Ok tt /\
      forward_trace q qo = Ok fw /\
      (let r0 := mkOut tr (detach L (tadd L (out_lw qo) lv)) (detach_output mo) TyPropose (Some ix) None None
                    (Some (mkPX nodes lv (if is_tensor L (out_lw qo) then detach L (out_lw qo) else to_tensor L (out_lw qo)) pt tt fw)) [] in
       in_loss o r0 (match out_loss qo with Some l => l | None => match in_loss0 o with Some l => l | None => tzero L end end) = Ok l /\
       r = add_subs (truthy (kwarg "_debug" (VBool false) kws) || in_debug o) [("q_out", qo); ("p_out", po)] (with_loss r0 l)).
  Proof.
    intros Hkw Hq H. cbn [run] in H.
    apply ret_mbind in H. destruct H as (u0 & s0 & Hcp & H). apply ret_massert in Hcp. destruct Hcp as [Hcp <-].
    apply ret_mbind in H. destruct H as (b & s0 & Hb & H). apply ret_lift in Hb. destruct Hb as [Hb <-].
    rewrite (sub_kwargs_eq kws b (in_ix o) Hb) in H.
    apply ret_mbind in H. destruct H as (qo & s1 & H1 & H).
    apply ret_mbind in H. destruct H as (po & s2 & H2 & H).
    apply ret_mbind in H. destruct H as (qt & s3 & Htf & H). apply ret_lift in Htf. destruct Htf as [Htf <-].
    apply ret_mbind in H. destruct H as (lu & s3 & Hlu & H). apply ret_lift in Hlu. destruct Hlu as [Hlu <-].
    apply ret_mbind in H. destruct H as ([mo mt] & s3 & Hm & H). apply ret_lift in Hm. destruct Hm as [Hm <-].
    apply ret_mbind in H. destruct H as (tr & s3 & Htr & H). apply ret_lift in Htr. destruct Htr as [Htr <-].
    apply ret_mbind in H. destruct H as (lw & s3 & Hlw & H).
    assert (Hlw' : is_tensor L (tadd L (out_lw qo) (tsub L (out_lw po) lu)) = true /\
       lw = detach L (tadd L (out_lw qo) (tsub L (out_lw po) lu)) /\ s3 = s2).
    { destruct (is_tensor L (tadd L (out_lw qo) (tsub L (out_lw po) lu))).
      - apply ret_ret in Hlw. destruct Hlw as [<- <-]. tauto.
      - apply ret_raise in Hlw. tauto. }
    destruct Hlw' as (Hten & -> & ->).
    apply ret_mbind in H. destruct H as (pt & s3 & Hpt & H). apply ret_lift in Hpt. destruct Hpt as [Hpt <-].
    apply ret_mbind in H. destruct H as (tt' & s3 & Htt & H). apply ret_lift in Htt. destruct Htt as [Htt <-].
    apply ret_mbind in H. destruct H as (fw & s3 & Hfw & H). apply ret_lift in Hfw. destruct Hfw as [Hfw <-].
    apply ret_mbind in H. destruct H as (r1 & s3 & Hl & H). apply ret_lift in Hl. destruct Hl as [Hl <-].
    apply ret_ret in H. destruct H as [<- <-].
    apply add_loss_ok in Hl. destruct Hl as (l & Hl & ->).
    pose proof (wf_sub_kwargs (in_ix o) kws Hkw) as Hwk.
    apply ret_mdispatch in H1; [|exact Hwk]. destruct H1 as [Hfn H1].
    apply ret_with in H2; [|intros t [= <-]; eapply Hq; exact H1]. destruct H2 as (s10 & H2 & Es).
    apply ret_mdispatch in H2; [|exact Hwk]. destruct H2 as [_ H2].
    rewrite clash_sub_kwargs in Hfn by (cbn; intuition discriminate).
    unfold bind_call in Hb. destruct (clash ["self"; "c"] kws) eqn:Ec; [discriminate|]. injection Hb as <-.
    exists qo, s1, po, s10, qt, lu, mo, mt, tr, pt, tt', fw, l.
    cbn [b_debug b_ix b_sd b_bd b_rep] in *. unfold resolve_ix in *. cbn zeta.
    apply negb_true_iff in Hcp.
    split; [exact Hcp|]. split; [reflexivity|]. split; [exact Hfn|]. split; [exact H1|]. split; [exact H2|].
    split; [exact Es|]. split; [exact Htf|]. split; [exact Hlu|]. split; [exact Hm|]. split; [exact Htr|].
    split; [exact Hten|]. split; [exact Hpt|]. split; [exact Htt|]. split; [exact Hfw|].
    split; [exact Hl|reflexivity].
  Qed.

  Lemma as_trace_wf (items : list (string * rv L)) : wf_dict (as_trace items).
  Proof. apply wf_dmerge, wf_nil. Qed.
  Lemma rerun_items_wf (tr acc tr' : trace L) : wf_dict acc -> rerun_items tr acc = Ok tr' -> wf_dict tr'.
  Proof.
    revert acc. induction tr as [|[k r] tr IH]; cbn; intros acc Hwf H; [injection H as <-; exact Hwf|].
    destruct (rerun_rv r) as [r'|e]; cbn in H; [|discriminate]. apply (IH (dset k r' acc)); [apply wf_dset, Hwf|exact H].
  Qed.

  (** every returned trace is a dict *)
  Lemma run_returns_wf t : forall c kws s o s',
    wf_dict kws -> wf_st s -> returns (run (L := L) t c kws) s o s' -> wf_dict (out_trace o) /\ wf_st s'.
  Proof.
    induction t as [oid sg m|oid q IHq ix l0 rs dbg|oid p IHp f IHf o|oid q2 IH2 q1 IH1 o|oid p IHp q IHq o tf nr];
      intros c kws s r s' Hkw Hst H; (split; [|eapply run_wf_st; [exact H|exact Hst]]).
    - cbn in H. apply forward_returns in H. destruct H as (k' & ou & tr & lw & s1 & _ & _ & _ & _ & _ & Hwf & _ & ->). exact Hwf.
    - apply run_resample_returns in H; [|exact Hkw].
      destruct H as (qo & s1 & items & lw2 & c1 & c2 & st2 & _ & _ & _ & _ & _ & _ & _ & ->).
      destruct (_ || _); cbn; apply as_trace_wf.
    - apply run_extend_returns in H; [|exact Hkw|exact Hst].
      destruct H as (po & s1 & fo & s2 & lu & tr & l & _ & _ & _ & _ & _ & _ & _ & _ & _ & Ht & _ & ->).
      destruct (_ || _); cbn; eapply copytraces_wf; exact Ht.
    - apply run_compose_returns in H; [|exact Hkw].
      destruct H as (o1 & s1 & o2 & tr & l & _ & _ & _ & _ & _ & Ht & _ & ->).
      destruct (_ || _); cbn; eapply copytraces_wf; exact Ht.
    - apply run_propose_returns in H; [|exact Hkw|].
      2:{ intros qo s1 Hq. exact (proj1 (IHq _ _ _ _ _ (wf_sub_kwargs _ _ Hkw) Hst Hq)). }
      destruct H as (qo & s1 & po & s2 & qt & lu & mo & mt & tr & pt & tt' & fw & l & _ & _ & _ & Hq & Hp & _ & _ & _ & Hm & Htr & _ & _ & _ & _ & _ & ->).
      assert (Hwq : wf_dict (out_trace qo) /\ wf_st s1) by (exact (IHq _ _ _ _ _ (wf_sub_kwargs _ _ Hkw) Hst Hq)).
      destruct Hwq as [Hwq Hs1].
      assert (Hwp : wf_dict (out_trace po)).
      { refine (proj1 (IHp _ _ _ _ _ (wf_sub_kwargs _ _ Hkw) _ Hp)).
        apply wf_set_cond; [exact Hs1|]. intros t [= <-]. exact Hwq. }
      assert (Hwm : wf_dict mt).
      { unfold marginalize in Hm. destruct (is_extend p).
        - destruct (out_marginal po) as [[mk mo']|]; [|discriminate].
          destruct (copytraces _ NoOverlaps [out_trace po]) as [t0|e] eqn:Ec; cbn in Hm; [|discriminate].
          injection Hm as _ <-. eapply copytraces_wf; exact Ec.
        - injection Hm as _ <-. exact Hwp. }
      assert (Hwt : wf_dict tr).
      { destruct nr; [injection Htr as <-; exact Hwm|]. eapply rerun_items_wf; [|exact Htr]. apply wf_nil. }
      destruct (_ || _); cbn; exact Hwt.
  Qed.

  (** building executions *)
  Lemma raises_bind_l {A B} (m : M L A) (f : A -> M L B) s e s' : raises m s e s' -> raises (mbind m f) s e s'.
  Proof. intros H. apply outcome_mbind. right. exists e. split; [reflexivity|exact H]. Qed.
  Lemma raises_bind_r {A B} (m : M L A) (f : A -> M L B) s a s1 e s' :
    returns m s a s1 -> raises (f a) s1 e s' -> raises (mbind m f) s e s'.
  Proof. intros H1 H2. apply outcome_mbind. left. exists a, s1. split; assumption. Qed.
  Lemma returns_bind {A B} (m : M L A) (f : A -> M L B) s a s1 b s' :
    returns m s a s1 -> returns (f a) s1 b s' -> returns (mbind m f) s b s'.
  Proof. intros H1 H2. apply ret_mbind. exists a, s1. split; assumption. Qed.
  Lemma returns_lift {A} (x : A) (r : res A) s : r = Ok x -> returns (L := L) (lift r) s x s.
  Proof. intros ->. constructor. Qed.
  Lemma raises_lift {A} e (r : res A) s : r = Err e -> raises (L := L) (lift r) s e s.
  Proof. intros ->. constructor. Qed.
  Lemma bind_call_ok (kws : dict (pyval (T L))) :
    clash ["self"; "c"] kws = false ->
    bind_call kws = Ok (mkBound (kwarg "sample_dims" VNone kws) (kwarg "batch_dim" VNone kws)
                (kwarg "_debug" (VBool false) kws) (kwarg "reparameterized" (VBool true) kws)
                (kwarg "ix" VNone kws)
                (filter (fun kv => negb (mem (fst kv) reserved)) kws)).
  Proof. intros H. unfold bind_call. rewrite H. reflexivity. Qed.
End Pres.
