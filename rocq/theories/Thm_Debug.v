(** Proofs of C20: the _debug argument. *)
From Verif Require Export Thm_Session.

Section NoDebug.
  Context {V : Type}.
  Implicit Types k d : dict V.

  Lemma filter_comm {A} (P Q : A -> bool) l : filter P (filter Q l) = filter Q (filter P l).
  Proof.
    induction l as [|x l IH]; cbn; [reflexivity|].
    destruct (P x) eqn:EP, (Q x) eqn:EQ; cbn; rewrite ?EP, ?EQ, IH; reflexivity.
  Qed.
  Lemma no_debug_filter P k : no_debug (filter P k) = filter P (no_debug k).
  Proof. apply filter_comm. Qed.
  Lemma no_debug_app a b : no_debug (a ++ b) = no_debug a ++ no_debug b :> dict V.
  Proof. apply filter_app. Qed.
  Lemma no_debug_id k : ~ In "_debug" (dkeys k) -> no_debug k = k.
  Proof.
    induction k as [|[x v] k IH]; cbn; intros H; [reflexivity|].
    destruct (String.eqb_spec x "_debug") as [->|Hne]; [tauto|]. cbn. f_equal. apply IH. tauto.
  Qed.
  Lemma dget_no_debug x k : x <> "_debug" -> dget x (no_debug k) = dget x k.
  Proof.
    intros Hx. induction k as [|[y v] k IH]; cbn; [reflexivity|].
    destruct (String.eqb_spec y "_debug") as [->|Hne]; cbn.
    - destruct (String.eqb_spec x "_debug"); [contradiction|exact IH].
    - destruct (String.eqb x y); [reflexivity|exact IH].
  Qed.
  Lemma filter_drops_debug P k : (forall v, P ("_debug", v) = false) -> filter P (no_debug k) = filter P k.
  Proof.
    intros HP. induction k as [|[y v] k IH]; cbn; [reflexivity|].
    destruct (String.eqb_spec y "_debug") as [->|Hne]; cbn; [rewrite HP; exact IH|].
    destruct (P (y, v)); [f_equal|]; exact IH.
  Qed.
  Lemma dmerge_app d : forall a, wf_dict (a ++ d) -> dmerge a d = a ++ d :> dict V.
  Proof.
    induction d as [|[x v] d IH]; intros a Hwf; [rewrite app_nil_r; reflexivity|].
    change (dmerge a ((x, v) :: d)) with (dmerge (dset x v a) d).
    assert (Hni : ~ In x (dkeys a)).
    { unfold wf_dict in Hwf. rewrite dkeys_app in Hwf. cbn in Hwf. apply NoDup_remove_2 in Hwf.
      intros Hin. apply Hwf, in_or_app. left; exact Hin. }
    rewrite dset_new by exact Hni. rewrite IH.
    - rewrite <- app_assoc. reflexivity.
    - rewrite <- app_assoc. exact Hwf.
  Qed.
End NoDebug.

Section Debug.
  Context {L : lib}.
  Notation pyval := (pyval (T L)).
  Implicit Types kws : dict pyval.

  Lemma clash_no_debug names kws : ~ In "_debug" names -> clash names (no_debug kws) = clash names kws.
  Proof.
    intros Hn. unfold clash. induction kws as [|[y v] k IH]; [reflexivity|].
    cbn [no_debug filter fst]. destruct (String.eqb_spec y "_debug") as [->|Hne]; cbn [negb existsb fst].
    - destruct (mem "_debug" names) eqn:E; [apply mem_In in E; contradiction|exact IH].
    - f_equal. exact IH.
  Qed.
  Lemma clash_eq names kws kws' : no_debug kws = no_debug kws' -> ~ In "_debug" names -> clash names kws = clash names kws'.
  Proof. intros E H. rewrite <- (clash_no_debug names kws), E by exact H. apply clash_no_debug, H. Qed.
  Lemma kwarg_eq x d kws kws' : no_debug kws = no_debug kws' -> x <> "_debug" -> kwarg x d kws = kwarg x d kws'.
  Proof.
    intros E H. unfold kwarg. rewrite <- (dget_no_debug x kws), <- (dget_no_debug x kws'), E by exact H. reflexivity.
  Qed.
  Lemma sub_kwargs_no_debug i kws kws' : no_debug kws = no_debug kws' -> no_debug (sub_kwargs i kws) = no_debug (sub_kwargs i kws').
  Proof.
    intros E. unfold sub_kwargs. rewrite !no_debug_app, !no_debug_filter, E. f_equal.
    rewrite (kwarg_eq "ix" _ kws kws' E), (kwarg_eq "sample_dims" _ kws kws' E), (kwarg_eq "batch_dim" _ kws kws' E),
      (kwarg_eq "reparameterized" _ kws kws' E) by discriminate. reflexivity.
  Qed.

  (** what a model receives *)
  Definition passed (sg : sig) kws : dict pyval :=
    filter (fun kv => check_passable_kwarg (fst kv) sg)
      (dmerge [("sample_dims", kwarg "sample_dims" VNone kws); ("batch_dim", kwarg "batch_dim" VNone kws);
               ("reparameterized", kwarg "reparameterized" (VBool true) kws)]
         (filter (fun kv => negb (mem (fst kv) ["sample_dims"; "batch_dim"; "reparameterized"])) kws)).
  Lemma shape_app_wf (a b c : pyval) kws : wf_dict kws ->
    wf_dict ([("sample_dims", a); ("batch_dim", b); ("reparameterized", c)] ++
       filter (fun kv => negb (mem (fst kv) ["sample_dims"; "batch_dim"; "reparameterized"])) kws).
  Proof.
    intros Hwf. pose proof (wf_filter (fun kv : string * pyval => negb (mem (fst kv) ["sample_dims"; "batch_dim"; "reparameterized"])) kws Hwf) as Hf.
    assert (Hd : forall x, In x ["sample_dims"; "batch_dim"; "reparameterized"] ->
      ~ In x (dkeys (filter (fun kv : string * pyval => negb (mem (fst kv) ["sample_dims"; "batch_dim"; "reparameterized"])) kws))).
    { intros x Hx Hin. apply in_map_iff in Hin. destruct Hin as ([y v] & E & Hin). cbn in E. subst y.
      apply filter_In in Hin. destruct Hin as [_ Hp]. cbn [fst] in Hp. apply mem_In in Hx. rewrite Hx in Hp. discriminate. }
    unfold wf_dict in *. rewrite dkeys_app.
    change (dkeys [("sample_dims", a); ("batch_dim", b); ("reparameterized", c)]) with ["sample_dims"; "batch_dim"; "reparameterized"].
    cbn [app]. constructor; [|constructor; [|constructor; [|exact Hf]]].
    - cbn. intros [E|[E|H]]; [discriminate|discriminate|]. revert H. apply Hd. cbn; tauto.
    - cbn. intros [E|H]; [discriminate|]. revert H. apply Hd. cbn; tauto.
    - apply Hd. cbn; tauto.
  Qed.
  Lemma passed_no_debug sg kws kws' : wf_dict kws -> wf_dict kws' -> no_debug kws = no_debug kws' ->
    no_debug (passed sg kws) = no_debug (passed sg kws').
  Proof.
    intros W W' E. unfold passed. rewrite !dmerge_app by (apply shape_app_wf; assumption).
    rewrite !no_debug_filter, !no_debug_app, !no_debug_filter, E.
    rewrite (kwarg_eq "sample_dims" _ kws kws' E), (kwarg_eq "batch_dim" _ kws kws' E),
      (kwarg_eq "reparameterized" _ kws kws' E) by discriminate. reflexivity.
  Qed.
  Lemma passable_debug sg : ~ In "_debug" (s_args sg) -> ~ In "_debug" (s_kwonly sg) -> check_passable_kwarg "_debug" sg = s_varkw sg.
  Proof.
    intros H1 H2. unfold check_passable_kwarg.
    destruct (mem "_debug" (s_kwonly sg)) eqn:E1; [apply mem_In in E1; contradiction|].
    destruct (mem "_debug" (s_args sg)) eqn:E2; [apply mem_In in E2; contradiction|].
    destruct (s_varkw sg); reflexivity.
  Qed.
  Lemma ignores_same {B} sg (f : dict pyval -> B) (k k' : dict pyval) :
    ignores_debug sg f -> no_debug k = no_debug k' ->
    f (filter (fun kv => check_passable_kwarg (fst kv) sg) k) = f (filter (fun kv => check_passable_kwarg (fst kv) sg) k').
  Proof.
    intros (H1 & H2 & H3) E. pose proof (passable_debug sg H1 H2) as Hp. destruct (s_varkw sg).
    - apply H3; [reflexivity|]. rewrite !no_debug_filter, E. reflexivity.
    - f_equal. rewrite <- (filter_drops_debug _ k), E by (intros; exact Hp). apply filter_drops_debug. intros; exact Hp.
  Qed.
  Lemma In_firstn {A} (x : A) n l : In x (firstn n l) -> In x l.
  Proof. revert l. induction n as [|n IH]; intros [|y l]; cbn; try tauto. intros [->|H]; [left; reflexivity|right; apply IH, H]. Qed.

  Lemma forward_debug oid sg m c kws kws' (s s' : st L) :
    (forall c, ignores_debug sg (m c)) -> wf_dict kws -> wf_dict kws' -> no_debug kws = no_debug kws' -> agree s s' ->
    same_draws (rel eq agree) (forward oid sg m c kws s) (forward oid sg m c kws' s').
  Proof.
    intros Hb W W' E HS. unfold forward.
    fold (passed sg kws) (passed sg kws').
    assert (Hm : m c (passed sg kws) = m c (passed sg kws')).
    { unfold passed. apply ignores_same; [apply Hb|]. rewrite !dmerge_app by (apply shape_app_wf; assumption).
      rewrite !no_debug_app, !no_debug_filter, E.
      rewrite (kwarg_eq "sample_dims" _ kws kws' E), (kwarg_eq "batch_dim" _ kws kws' E),
        (kwarg_eq "reparameterized" _ kws kws' E) by discriminate. reflexivity. }
    rewrite Hm.
    rewrite (clash_eq ["self"] _ _ E) by (cbn; intuition discriminate).
    rewrite (clash_eq (firstn 3 (s_args sg)) _ _ (passed_no_debug sg kws kws' W W' E)).
    2:{ intros H. apply In_firstn in H. destruct (Hb c) as [Hn _]. contradiction. }
    rewrite (kwarg_eq "sample_dims" _ kws kws' E), (kwarg_eq "batch_dim" _ kws kws' E),
        (kwarg_eq "reparameterized" _ kws kws' E) by discriminate.
    destruct (clash ["self"] kws' || _); [apply sd_raise, HS|].
    rewrite !mbind_get, !mbind_modify. rewrite (proj1 HS oid).
    eapply sd_mbind; [apply sd_exec with (S := agree)| |intros ? ? H; exact H].
    - intros x y H. apply H.
    - exact agree_set_store.
    - exact HS.
    - intros [o tr] b s1 s1' <- Hs1.
      eapply sd_mbind; [apply sd_lift_eq, Hs1| |intros ? ? H; exact H].
      intros lw lw' s2 s2' <- Hs2. apply sd_ret; [reflexivity|exact Hs2].
  Qed.

  (** results of the same program in the two runs *)
  Definition RO (t : inf L) (o o' : out L) : Prop :=
    no_subs o = no_subs o' /\
    (debug_attr t = Ok true ->
       map (fun ko => (fst ko, no_subs (snd ko))) (out_subs o) = map (fun ko => (fst ko, no_subs (snd ko))) (out_subs o')).
  Lemma RO_fields t o o' : RO t o o' ->
    out_trace o = out_trace o' /\ out_lw o = out_lw o' /\ out_output o = out_output o' /\ out_type o = out_type o' /\
    out_loss o = out_loss o' /\ out_marginal o = out_marginal o'.
  Proof. intros [H _]. unfold no_subs in H. injection H. intros. repeat split; assumption. Qed.
  Lemma get_sub_no_subs k (o o' : out L) :
    map (fun ko => (fst ko, no_subs (snd ko))) (out_subs o) = map (fun ko => (fst ko, no_subs (snd ko))) (out_subs o') ->
    option_map no_subs (get_sub k o) = option_map no_subs (get_sub k o').
  Proof.
    unfold get_sub. generalize (out_subs o') as l'. generalize (out_subs o) as l. generalize (no_subs (L := L)) as g.
    intros g. induction l as [|[a x] l IH]; intros [|[b y] l'] E; cbn in *; try discriminate; [reflexivity|].
    injection E as -> E1 E2. destruct (String.eqb k b); cbn; [f_equal; exact E1|apply IH; exact E2].
  Qed.
  Lemma forward_trace_RO t o o' : RO t o o' -> forward_trace t o = forward_trace t o'.
  Proof.
    intros H. destruct (RO_fields _ _ _ H) as (_ & _ & _ & Ht & _). destruct H as [_ Hs]. unfold forward_trace.
    destruct (debug_attr t) as [[]|]; cbn; try reflexivity. rewrite Ht. destruct (out_type o'); try reflexivity.
    pose proof (get_sub_no_subs "q2_out" _ _ (Hs eq_refl)) as Hg.
    destruct (get_sub "q2_out" o) as [x|], (get_sub "q2_out" o') as [y|]; cbn in Hg; try discriminate; [|reflexivity].
    injection Hg. intros; congruence.
  Qed.
  Lemma add_loss_RO lf l0 t (a b r : out L) : RO t a b -> add_loss lf l0 a r = add_loss lf l0 b r.
  Proof. intros H. destruct (RO_fields _ _ _ H) as (_ & _ & _ & _ & Hl & _). unfold add_loss. rewrite Hl. reflexivity. Qed.
  Lemma marginalize_RO t (a b : out L) : RO t a b -> marginalize t a = marginalize t b.
  Proof. intros H. destruct (RO_fields _ _ _ H) as (H1 & _ & H3 & _ & _ & H6). unfold marginalize. rewrite H1, H3, H6. reflexivity. Qed.
  Lemma no_subs_add d subs (o : out L) : no_subs (add_subs d subs o) = no_subs o.
  Proof. destruct d; reflexivity. Qed.
  (** building the result of a combinator *)
  Lemma RO_build t d d' dbg subs subs' (r : out L) :
    debug_attr t = Ok dbg -> out_subs r = [] ->
    map (fun ko => (fst ko, no_subs (snd ko))) subs = map (fun ko => (fst ko, no_subs (snd ko))) subs' ->
    RO t (add_subs (d || dbg) subs r) (add_subs (d' || dbg) subs' r).
  Proof.
    intros Hd Hr Hs. split; [rewrite !no_subs_add; reflexivity|]. rewrite Hd. intros [= ->].
    rewrite !orb_true_r. cbn. rewrite Hr. exact Hs.
  Qed.
  Lemma add_loss_subs lf l0 (a r r' : out L) : add_loss lf l0 a r = Ok r' -> out_subs r' = out_subs r.
  Proof. intros H. apply add_loss_ok in H. destruct H as (l & _ & ->). reflexivity. Qed.

  Lemma transf_debug tf tr (d d' : pyval) rest :
    match tf with None => True | Some f => forall tr, ignores_debug (tf_sig f) (tf_call f tr) end ->
    apply_transf (L := L) tf tr (("_debug", d) :: rest) = apply_transf tf tr (("_debug", d') :: rest).
  Proof.
    destruct tf as [f|]; [|reflexivity]. intros Hi. unfold apply_transf. f_equal.
    unfold dispatch_kwargs. cbn [c_self c_forward c_model]. unfold kwargs_for.
    assert (Ef : forall k : dict pyval, filter (fun kv => check_passable_kwarg (fst kv) (tf_sig f) && negb (dmem (fst kv) ([] : dict pyval))) k
       = filter (fun kv => check_passable_kwarg (fst kv) (tf_sig f)) k).
    { intros k. apply filter_ext. intros kv. cbn. apply andb_true_r. }
    rewrite !Ef. apply ignores_same; [apply Hi|reflexivity].
  Qed.

  Lemma sd_bind_call (RB : out L -> out L -> Prop) (S : st L -> st L -> Prop) kws kws' (f f' : bound L -> M L (out L)) s s' :
    S s s' -> no_debug kws = no_debug kws' ->
    (let sh := filter (fun kv => negb (mem (fst kv) reserved)) kws' in
     let mk d := mkBound (kwarg "sample_dims" VNone kws') (kwarg "batch_dim" VNone kws') d
                   (kwarg "reparameterized" (VBool true) kws') (kwarg "ix" VNone kws') sh in
     same_draws (rel RB S) (f (mk (kwarg "_debug" (VBool false) kws)) s) (f' (mk (kwarg "_debug" (VBool false) kws')) s')) ->
    same_draws (rel RB S) (mbind (lift (bind_call kws)) f s) (mbind (lift (bind_call kws')) f' s').
  Proof.
    intros HS E H. unfold bind_call. rewrite (clash_eq ["self"; "c"] _ _ E) by (cbn; intuition discriminate).
    destruct (clash ["self"; "c"] kws'); [apply (sd_raise (A := out L)), HS|].
    assert (Ef : filter (fun kv : string * pyval => negb (mem (fst kv) reserved)) kws = filter (fun kv => negb (mem (fst kv) reserved)) kws').
    { rewrite <- (filter_drops_debug _ kws), E by reflexivity. apply filter_drops_debug. reflexivity. }
    rewrite Ef. rewrite (kwarg_eq "ix" _ kws kws' E), (kwarg_eq "sample_dims" _ kws kws' E), (kwarg_eq "batch_dim" _ kws kws' E),
      (kwarg_eq "reparameterized" _ kws kws' E) by discriminate.
    exact H.
  Qed.

  Lemma run_debug t : debug_blind t -> forall c kws kws' (s s' : st L),
    wf_dict kws -> wf_dict kws' -> no_debug kws = no_debug kws' -> agree s s' ->
    same_draws (rel (RO t) agree) (run t c kws s) (run t c kws' s').
  Proof.
    assert (Hsub : forall d i kws',
      inf_kwargs (mkBound (kwarg "sample_dims" VNone kws') (kwarg "batch_dim" VNone kws') d
                   (kwarg "reparameterized" (VBool true) kws') (kwarg "ix" VNone kws')
                   (filter (fun kv => negb (mem (fst kv) reserved)) kws')) i
       ++ filter (fun kv => negb (mem (fst kv) reserved)) kws' =
      ("_debug", d) :: ("ix", i) ::
      [("sample_dims", kwarg "sample_dims" VNone kws'); ("batch_dim", kwarg "batch_dim" VNone kws');
       ("reparameterized", kwarg "reparameterized" (VBool true) kws')] ++ filter (fun kv => negb (mem (fst kv) reserved)) kws') by reflexivity.
    assert (Hwf : forall d i kws', wf_dict kws' -> wf_dict (("_debug", d) :: ("ix", i) ::
      [("sample_dims", kwarg "sample_dims" VNone kws'); ("batch_dim", kwarg "batch_dim" VNone kws');
       ("reparameterized", kwarg "reparameterized" (VBool true) kws')] ++ filter (fun kv => negb (mem (fst kv) reserved)) kws')).
    { intros d i kws' W. pose proof (wf_sub_kwargs i kws' W) as H. exact H. }
    assert (Hdisp : forall tt (d d' : pyval) rest, wf_dict (("_debug", d) :: rest) -> wf_dict (("_debug", d') :: rest) ->
      (forall c kws kws' (s s' : st L), wf_dict kws -> wf_dict kws' -> no_debug kws = no_debug kws' -> agree s s' ->
         same_draws (rel (RO tt) agree) (run tt c kws s) (run tt c kws' s')) ->
      forall c s s', agree s s' ->
      same_draws (rel (RO tt) agree) (mdispatch tt (("_debug", d) :: rest) (run tt c) s)
                                     (mdispatch tt (("_debug", d') :: rest) (run tt c) s')).
    { intros tt d d' rest W W' IH c s s' HS. apply sd_dispatch; [reflexivity|exact HS|]. intros _.
      rewrite !dispatch_all by assumption. apply IH; [assumption|assumption|reflexivity|exact HS]. }
    induction t as [oid sg m|oid q IHq ix l0 rs dbg|oid p IHp f IHf o|oid q2 IH2 q1 IH1 o|oid p IHp q IHq o tf nr];
      intros Hb c kws kws' s s' W W' E HS; cbn [run].
    - eapply sd_impl; [|apply forward_debug; [exact Hb|exact W|exact W'|exact E|exact HS]].
      intros [x s1] [y s1'] [HR H1]. cbn in *. split; [|exact H1]. cbn.
      destruct x, y; try contradiction; [|exact HR]. subst. split; [reflexivity|discriminate].
    - apply sd_bind_call; [exact HS|exact E|]. cbn zeta. cbn [b_debug b_ix b_sd b_bd b_rep b_shared].
      rewrite !Hsub.
      eapply sd_mbind; [apply IHq; [exact Hb|apply Hwf, W'|apply Hwf, W'|reflexivity|exact HS]| |intros ? ? H; exact H].
      intros qo qo' s2 s2' HR H2. destruct (RO_fields _ _ _ HR) as (E1 & E2 & E3 & _). rewrite E1, E2, E3.
      eapply sd_mbind with (RA := eq) (S := agree); [| |intros ? ? H; exact H].
      { eapply sd_bind with (R := eq); [apply sd_tree_refl; reflexivity|]. intros x y <-. constructor. split; [destruct x; reflexivity|exact H2]. }
      intros [i0 lw] tl' s3 s3' <- H3. cbn [fst snd].
      eapply sd_mbind with (RA := eq) (S := agree); [| |intros ? ? H; exact H].
      { destruct (out_output qo'); first [apply sd_raise, H3|apply sd_lift_eq, H3]. }
      intros c2 c2' s4 s4' <- H4.
      eapply sd_mbind; [apply sd_update with (S := agree); [intros ? ? H; split; apply H|exact agree_set_store|exact H4]| |intros ? ? H; exact H].
      intros u u' s5 s5' _ H5.
      rewrite (add_loss_RO _ _ _ _ _ _ HR).
      eapply sd_mbind with (RA := fun r r' => r = r' /\ out_subs r = []) (S := agree); [apply sd_lift; [|exact H5]| |intros ? ? H; exact H].
      { destruct (add_loss _ _ qo' _) as [r|] eqn:Er; [|reflexivity]. split; [reflexivity|]. apply add_loss_subs in Er. exact Er. }
      intros r r' s6 s6' [<- Hr] H6.
      apply sd_ret; [|exact H6]. apply RO_build; [reflexivity|exact Hr|]. cbn. destruct HR as [-> _]. reflexivity.
    - destruct Hb as [Hbp Hbf]. apply sd_bind_call; [exact HS|exact E|]. cbn zeta. cbn [b_debug b_ix b_sd b_bd b_rep b_shared].
      rewrite !Hsub. rewrite !mbind_get, (proj1 HS oid).
      eapply sd_mbind with (RA := fun x y => RO p (fst x) (fst y) /\ RO f (snd x) (snd y)) (S := agree); [| |intros ? ? H; exact H].
      { eapply sd_with; [exact HS| |intros ? ? H; apply agree_set_cond, H]. intros t1 _.
        eapply sd_with; [apply agree_set_cond, HS| |intros ? ? H; apply agree_set_cond, H]. intros t2 _.
        eapply sd_mbind; [apply Hdisp; [apply Hwf, W'|apply Hwf, W'|exact (IHp Hbp)|apply agree_set_cond, agree_set_cond, HS]| |intros ? ? H; exact H].
        intros po po' s2 s2' HR H2. destruct (RO_fields _ _ _ HR) as (_ & _ & -> & _).
        eapply sd_mbind; [apply Hdisp; [apply Hwf, W'|apply Hwf, W'|exact (IHf Hbf)|exact H2]| |intros ? ? H; exact H].
        intros fo fo' s3 s3' HR' H3. apply sd_ret; [split; assumption|exact H3]. }
      intros [po fo] [po' fo'] s2 s2' [HR HR'] H2. cbn [fst snd] in HR, HR'.
      destruct (RO_fields _ _ _ HR) as (E1 & E2 & E3 & _). destruct (RO_fields _ _ _ HR') as (F1 & F2 & F3 & _).
      rewrite E1, E2, E3, F1, F2, F3.
      rewrite !mbind_get. rewrite (proj1 H2 oid).
      eapply sd_mbind with (RA := eq) (S := agree); [| |intros ? ? H; exact H].
      { destruct (get_cond oid s2'); [apply sd_massert, H2|].
        eapply sd_mbind; [apply sd_lift_eq, H2| |intros ? ? H; exact H]. intros z z' s3 s3' <- H3.
        eapply sd_mbind; [apply sd_massert, H3| |intros ? ? H; exact H]. intros u u' s4 s4' _ H4.
        apply sd_massert, H4. }
      intros u u' s3 s3' _ H3.
      eapply sd_mbind; [apply sd_massert, H3| |intros ? ? H; exact H]. intros u2 u2' s4 s4' _ H4.
      eapply sd_mbind; [apply sd_lift_eq, H4| |intros ? ? H; exact H]. intros lu lu' s5 s5' <- H5.
      eapply sd_mbind; [apply sd_lift_eq, H5| |intros ? ? H; exact H]. intros tr tr' s6 s6' <- H6.
      rewrite (add_loss_RO _ _ _ _ _ _ HR).
      eapply sd_mbind with (RA := fun r r' => r = r' /\ out_subs r = []) (S := agree); [apply sd_lift; [|exact H6]| |intros ? ? H; exact H].
      { destruct (add_loss _ _ po' _) as [r|] eqn:Er; [|reflexivity]. split; [reflexivity|]. apply add_loss_subs in Er. exact Er. }
      intros r r' s7 s7' [<- Hr] H7.
      apply sd_ret; [|exact H7]. apply RO_build; [reflexivity|exact Hr|]. cbn. destruct HR as [-> _], HR' as [-> _]. reflexivity.
    - destruct Hb as [Hb2 Hb1]. apply sd_bind_call; [exact HS|exact E|]. cbn zeta. cbn [b_debug b_ix b_sd b_bd b_rep b_shared].
      rewrite !Hsub.
      eapply sd_mbind; [apply Hdisp; [apply Hwf, W'|apply Hwf, W'|exact (IH1 Hb1)|exact HS]| |intros ? ? H; exact H].
      intros o1 o1' s2 s2' HR H2. destruct (RO_fields _ _ _ HR) as (E1 & E2 & E3 & _). rewrite E3.
      eapply sd_mbind; [apply Hdisp; [apply Hwf, W'|apply Hwf, W'|exact (IH2 Hb2)|exact H2]| |intros ? ? H; exact H].
      intros o2 o2' s3 s3' HR' H3. destruct (RO_fields _ _ _ HR') as (F1 & F2 & F3 & _). rewrite E1, E2, F1, F2, F3.
      eapply sd_mbind; [apply sd_lift_eq, H3| |intros ? ? H; exact H]. intros tr tr' s4 s4' <- H4.
      eapply sd_mbind; [apply sd_massert, H4| |intros ? ? H; exact H]. intros u u' s5 s5' _ H5.
      rewrite (add_loss_RO _ _ _ _ _ _ HR).
      eapply sd_mbind with (RA := fun r r' => r = r' /\ out_subs r = []) (S := agree); [apply sd_lift; [|exact H5]| |intros ? ? H; exact H].
      { destruct (add_loss _ _ o1' _) as [r|] eqn:Er; [|reflexivity]. split; [reflexivity|]. apply add_loss_subs in Er. exact Er. }
      intros r r' s6 s6' [<- Hr] H6.
      apply sd_ret; [|exact H6]. apply RO_build; [reflexivity|exact Hr|]. cbn. destruct HR as [-> _], HR' as [-> _]. reflexivity.
    - destruct Hb as (Hbp & Hbq & Hbt).
      eapply sd_mbind; [apply sd_massert, HS| |intros ? ? H; exact H]. intros u u' s0 s0' _ H0.
      apply sd_bind_call; [exact H0|exact E|]. cbn zeta. cbn [b_debug b_ix b_sd b_bd b_rep b_shared].
      rewrite !Hsub.
      eapply sd_mbind; [apply Hdisp; [apply Hwf, W'|apply Hwf, W'|exact (IHq Hbq)|exact H0]| |intros ? ? H; exact H].
      intros qo qo' s2 s2' HR H2. destruct (RO_fields _ _ _ HR) as (E1 & E2 & E3 & _).
      rewrite E1, E2.
      eapply sd_mbind with (RA := RO p) (S := agree); [| |intros ? ? H; exact H].
      { eapply sd_with; [exact H2| |intros ? ? H; apply agree_set_cond, H]. intros t1 _.
        apply Hdisp; [apply Hwf, W'|apply Hwf, W'|exact (IHp Hbp)|apply agree_set_cond, H2]. }
      intros po po' s3 s3' HR' H3. destruct (RO_fields _ _ _ HR') as (F1 & F2 & F3 & _). rewrite F1, F2.
      eapply sd_mbind with (RA := eq) (S := agree); [| |intros ? ? H; exact H].
      { apply sd_lift; [|exact H3]. unfold inf_kwargs. cbn [b_debug b_sd b_bd b_rep].
        rewrite (transf_debug tf _ (kwarg "_debug" (VBool false) kws) (kwarg "_debug" (VBool false) kws') _ Hbt).
        destruct (apply_transf tf _ _); reflexivity. }
      intros qt qt' s4 s4' <- H4.
      eapply sd_mbind; [apply sd_lift_eq, H4| |intros ? ? H; exact H]. intros lu lu' s5 s5' <- H5.
      rewrite (marginalize_RO _ _ _ HR').
      eapply sd_mbind; [apply sd_lift_eq, H5| |intros ? ? H; exact H]. intros [mo mt] mm' s6 s6' <- H6.
      eapply sd_mbind; [apply sd_lift_eq, H6| |intros ? ? H; exact H]. intros tr tr' s7 s7' <- H7.
      eapply sd_mbind with (RA := eq) (S := agree); [| |intros ? ? H; exact H].
      { destruct (is_tensor L _); [apply sd_ret; [reflexivity|exact H7]|apply sd_raise, H7]. }
      intros lw lw' s8 s8' <- H8.
      eapply sd_mbind; [apply sd_lift_eq, H8| |intros ? ? H; exact H]. intros pt pt' s9 s9' <- H9.
      eapply sd_mbind; [apply sd_lift_eq, H9| |intros ? ? H; exact H]. intros tt' tt'' sa sa' <- Ha.
      rewrite (forward_trace_RO _ _ _ HR).
      eapply sd_mbind; [apply sd_lift_eq, Ha| |intros ? ? H; exact H]. intros fw fw' sb sb' <- Hb.
      rewrite (add_loss_RO _ _ _ _ _ _ HR).
      eapply sd_mbind with (RA := fun r r' => r = r' /\ out_subs r = []) (S := agree); [apply sd_lift; [|exact Hb]| |intros ? ? H; exact H].
      { destruct (add_loss _ _ qo' _) as [r|] eqn:Er; [|reflexivity]. split; [reflexivity|]. apply add_loss_subs in Er. exact Er. }
      intros r r' sc sc' [<- Hr] Hc.
      apply sd_ret; [|exact Hc]. apply RO_build; [reflexivity|exact Hr|]. cbn. destruct HR as [-> _], HR' as [-> _]. reflexivity.
  Qed.

  Lemma run_debug_same t c kws kws' (s : st L) :
    debug_blind t -> wf_dict kws -> wf_dict kws' -> no_debug kws = no_debug kws' ->
    same_draws same_but_subs (run t c kws s) (run t c kws' s).
  Proof.
    intros Hb W W' E. eapply sd_impl; [|apply run_debug; try eassumption].
    - intros [x s1] [y s1'] [HR [_ [HS _]]]. split; [|exact HS]. cbn in *.
      destruct x, y; try contradiction; [apply HR|exact HR].
    - repeat split.
  Qed.

End Debug.
