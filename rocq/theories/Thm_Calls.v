(** Proofs of C17, C18, C19. *)
From Verif Require Export Thm_Debug.

(** ** C18 *)
Lemma accepts_spec sg k : check_passable_kwarg k sg = true <-> accepts sg k.
Proof.
  unfold check_passable_kwarg, accepts. rewrite !orb_true_iff, !mem_In. tauto.
Qed.
Lemma dispatch_spec {V} fn (kws : dict V) : wf_dict kws ->
  wf_dict (dispatch_kwargs fn kws) /\
  forall k v, dget k (dispatch_kwargs fn kws) = Some v <-> callee_accepts fn k /\ dget k kws = Some v.
Proof.
  intros W.
  assert (F : forall sg prev, wf_dict prev -> wf_dict (kwargs_for sg kws prev) /\
    forall k v, dget k (kwargs_for sg kws prev) = Some v <-> accepts sg k /\ dget k prev = None /\ dget k kws = Some v).
  { intros sg prev Wp. unfold kwargs_for. split; [apply wf_filter, W|]. intros k v.
    rewrite <- accepts_spec. split.
    - intros H. apply dget_In in H. apply filter_In in H. destruct H as [Hin Hp]. cbn in Hp.
      apply andb_true_iff in Hp. destruct Hp as [Hp Hm]. split; [exact Hp|].
      split; [|apply In_dget; assumption]. unfold dmem in Hm. destruct (dget k prev); [discriminate|reflexivity].
    - intros (Hp & Hn & Hg). apply In_dget; [apply wf_filter, W|]. apply filter_In. split; [apply dget_In, Hg|].
      cbn. rewrite Hp. unfold dmem. rewrite Hn. reflexivity. }
  assert (G : forall sg prev, wf_dict prev -> wf_dict (dmerge (kwargs_for sg kws prev) prev) /\
    forall k v, dget k (dmerge (kwargs_for sg kws prev) prev) = Some v <->
      dget k prev = Some v \/ (accepts sg k /\ dget k prev = None /\ dget k kws = Some v)).
  { intros sg prev Wp. destruct (F sg prev Wp) as [Wf Hf]. split; [apply wf_dmerge, Wf|].
    intros k v. rewrite dget_dmerge by exact Wp. destruct (dget k prev) as [w|] eqn:E.
    - split; [intros H; left; exact H|]. intros [H|(_ & H & _)]; [exact H|discriminate].
    - rewrite Hf. rewrite E. split; [tauto|]. intros [H|H]; [discriminate|exact H]. }
  destruct (F (c_self fn) []) as [W0 H0]; [apply wf_nil|].
  set (k0 := kwargs_for (c_self fn) kws []) in *.
  assert (H0' : forall k v, dget k k0 = Some v <-> accepts (c_self fn) k /\ dget k kws = Some v).
  { intros k v. rewrite H0. cbn. tauto. }
  set (k1 := match c_forward fn with Some f => dmerge (kwargs_for f kws k0) k0 | None => k0 end).
  assert (H1 : wf_dict k1 /\ forall k v, dget k k1 = Some v <->
     (accepts (c_self fn) k \/ exists sg, c_forward fn = Some sg /\ accepts sg k) /\ dget k kws = Some v).
  { unfold k1. destruct (c_forward fn) as [sg|].
    - destruct (G sg k0 W0) as [W1 H1]. split; [exact W1|]. intros k v. rewrite H1, H0'.
      split.
      + intros [[Ha Hv]|(Ha & _ & Hv)]; (split; [|exact Hv]); [left; exact Ha|right; exists sg; tauto].
      + intros [[Ha|(sg' & [= <-] & Ha)] Hv]; [left; tauto|].
        destruct (dget k k0) as [w|] eqn:E; [|tauto]. apply H0' in E. left. tauto.
    - split; [exact W0|]. intros k v. rewrite H0'. split; [tauto|].
      intros [[Ha|(sg' & H & _)] Hv]; [tauto|discriminate]. }
  destruct H1 as [W1 H1].
  unfold dispatch_kwargs. fold k0. fold k1. unfold callee_accepts.
  destruct (c_model fn) as [sg|].
  - destruct (G sg k1 W1) as [W2 H2]. split; [exact W2|]. intros k v. rewrite H2, H1. split.
    + intros [[[Ha|Ha] Hv]|(Ha & _ & Hv)]; (split; [|exact Hv]); [left; exact Ha|right; left; exact Ha|].
      right; right. exists sg. tauto.
    + intros [[Ha|[Ha|(sg' & [= <-] & Ha)]] Hv]; [left; tauto|left; tauto|].
      destruct (dget k k1) as [w|] eqn:E; [|tauto]. apply H1 in E. left. tauto.
  - split; [exact W1|]. intros k v. rewrite H1. split.
    + intros [[Ha|Ha] Hv]; (split; [|exact Hv]); [left; exact Ha|right; left; exact Ha].
    + intros [[Ha|[Ha|(sg' & H & _)]] Hv]; [tauto|tauto|discriminate].
Qed.

(** ** C17 *)
Section Calls.
  Context {L : lib}.
  Notation pyval := (pyval (T L)).
  Implicit Types kws : dict pyval.

  Lemma offered_sub self_ix enc kws : wf_dict kws -> forall k,
    offered enc (sub_kwargs self_ix kws) k =
    offered (enc ++ [self_ix]) kws k.
  Proof.
    intros W k. unfold offered.
    assert (Hk : forall x d, ~ In x ["_debug"; "ix"] -> In x reserved -> kwarg x d (sub_kwargs self_ix kws) = kwarg x (match x with "reparameterized" => VBool true | _ => VNone end) kws).
    { intros x d H1 H2. cbn in H1, H2. destruct H2 as [<-|[<-|[<-|[<-|[<-|[]]]]]]; try tauto; reflexivity. }
    assert (Hi : kwarg "ix" VNone (sub_kwargs self_ix kws) = if is_none self_ix then kwarg "ix" VNone kws else self_ix) by reflexivity.
    assert (Hd : kwarg "_debug" (VBool false) (sub_kwargs self_ix kws) = kwarg "_debug" (VBool false) kws) by reflexivity.
    assert (He : effective_ix enc (if is_none self_ix then kwarg "ix" VNone kws else self_ix) = effective_ix (enc ++ [self_ix]) (kwarg "ix" VNone kws)).
    { clear. induction enc as [|ix e IH]; cbn; [destruct self_ix; reflexivity|]. destruct ix; try reflexivity; exact IH. }
    assert (Ho : ~ In k reserved -> dget k (sub_kwargs self_ix kws) = dget k kws).
    { intros Hn. unfold sub_kwargs. cbn in Hn.
      rewrite dget_app. cbn [dget].
      destruct (String.eqb_spec k "_debug") as [->|N1]; [tauto|].
      destruct (String.eqb_spec k "ix") as [->|N2]; [tauto|].
      destruct (String.eqb_spec k "sample_dims") as [->|N3]; [tauto|].
      destruct (String.eqb_spec k "batch_dim") as [->|N4]; [tauto|].
      destruct (String.eqb_spec k "reparameterized") as [->|N5]; [tauto|].
      assert (Hm : mem k ["sample_dims"; "batch_dim"; "_debug"; "reparameterized"; "ix"] = false).
      { apply mem_not_In. cbn. intuition congruence. }
      clear - Hm. induction kws as [|[y v] d IH]; [reflexivity|]. cbn [filter fst dget].
      destruct (String.eqb_spec k y) as [<-|Hne].
      - rewrite Hm. cbn [negb dget]. rewrite String.eqb_refl. reflexivity.
      - destruct (negb _); cbn [dget]; [destruct (String.eqb_spec k y); [contradiction|]|]; exact IH. }
    destruct (String.eqb_spec k "sample_dims") as [->|N3]; [rewrite Hk by (cbn; intuition discriminate); reflexivity|].
    destruct (String.eqb_spec k "batch_dim") as [->|N4]; [rewrite Hk by (cbn; intuition discriminate); reflexivity|].
    destruct (String.eqb_spec k "reparameterized") as [->|N5]; [rewrite Hk by (cbn; intuition discriminate); reflexivity|].
    destruct (enc ++ [self_ix]) as [|e0 er] eqn:Ee; [destruct enc; discriminate|].
    destruct (String.eqb_spec k "ix") as [->|N6].
    { destruct enc; [|rewrite Hi, He; reflexivity].
      cbn in Ee. injection Ee as <- <-. cbn [effective_ix] in *. change (dget "ix" (sub_kwargs self_ix kws)) with
        (Some (if is_none self_ix then kwarg "ix" VNone kws else self_ix)). destruct self_ix; reflexivity. }
    destruct (String.eqb_spec k "_debug") as [->|N7].
    { destruct enc; reflexivity. }
    rewrite Ho by (cbn; intuition congruence). destruct enc; reflexivity.
  Qed.
  Lemma leaves_snoc t : forall enc x, leaves (enc ++ [x]) t = map (fun l => (fst l, snd l ++ [x])) (leaves (L := L) enc t).
  Proof.
    induction t as [oid sg m|oid q IHq ix l0 rs dbg|oid p IHp f IHf o|oid q2 IH2 q1 IH1 o|oid p IHp q IHq o tf nr];
      intros enc x; cbn [leaves map fst snd]; [reflexivity| | | |]; rewrite ?map_app; rewrite ?app_comm_cons.
    - apply IHq.
    - rewrite IHp, IHf. reflexivity.
    - rewrite IH2, IH1. reflexivity.
    - rewrite IHp, IHq. reflexivity.
  Qed.
  Lemma matches_sub self_ix kws : wf_dict kws -> forall ls cs,
    Forall2 (call_matches (sub_kwargs self_ix kws)) ls cs ->
    Forall2 (call_matches kws) (map (fun l => (fst l, snd l ++ [self_ix])) ls) cs.
  Proof.
    intros W ls cs H. induction H as [|[[i sg] e] cl ls cs Hm _ IH]; cbn; [constructor|]. constructor; [|exact IH].
    cbn. destruct Hm as (H1 & H2 & H3). split; [exact H1|]. split; [exact H2|].
    intros k v. rewrite H3, offered_sub by exact W. reflexivity.
  Qed.

  (** the calls made are those of an initial segment of the leaves, of all when it returned *)
  Definition called (kws : dict pyval) (ls : list (nat * sig * list pyval)) (ok : bool) (s s' : st L) : Prop :=
    exists cs ls1 ls2, calls s' = calls s ++ cs /\ ls = ls1 ++ ls2 /\ Forall2 (call_matches kws) ls1 cs /\ (ok = true -> ls2 = []).

  Definition is_ok {A} (r : res A) : bool := match r with Ok _ => true | Err _ => false end.

  Lemma called_none kws ls s s' : calls s' = calls s -> called kws ls false s s'.
  Proof. intros E. exists [], [], ls. rewrite app_nil_r. repeat split; [exact E|constructor|discriminate]. Qed.
  Lemma called_seq kws l1 l2 ok s s1 s2 : called kws l1 true s s1 -> called kws l2 ok s1 s2 -> called kws (l1 ++ l2) ok s s2.
  Proof.
    intros (c1 & a1 & b1 & E1 & Ea & F1 & O1) (c2 & a2 & b2 & E2 & Eb & F2 & O2).
    specialize (O1 eq_refl). subst b1. rewrite app_nil_r in Ea. subst a1.
    exists (c1 ++ c2), (l1 ++ a2), b2. rewrite E2, E1, app_assoc. split; [reflexivity|].
    rewrite Eb, app_assoc. split; [reflexivity|]. split; [apply Forall2_app; assumption|exact O2].
  Qed.
  Lemma called_stop kws l1 l2 s s1 : called kws l1 false s s1 -> called kws (l1 ++ l2) false s s1.
  Proof.
    intros (c1 & a1 & b1 & E1 & Ea & F1 & O1). exists c1, a1, (b1 ++ l2). split; [exact E1|].
    rewrite Ea, app_assoc. repeat split; [exact F1|discriminate].
  Qed.
  Lemma called_sub kws self_ix ls ok s s' : wf_dict kws ->
    called (sub_kwargs self_ix kws) ls ok s s' -> called kws (map (fun l => (fst l, snd l ++ [self_ix])) ls) ok s s'.
  Proof.
    intros W (c1 & a1 & b1 & E1 & -> & F1 & O1).
    exists c1, (map (fun l => (fst l, snd l ++ [self_ix])) a1), (map (fun l => (fst l, snd l ++ [self_ix])) b1).
    split; [exact E1|]. split; [apply map_app|]. split; [apply matches_sub; assumption|]. intros H. rewrite (O1 H). reflexivity.
  Qed.
  Lemma called_eq kws ls ok s s1 s2 : calls s1 = calls s2 -> called kws ls ok s s1 -> called kws ls ok s s2.
  Proof. intros E (c & a & b & H & Hr). exists c, a, b. rewrite <- E. split; assumption. Qed.
  Lemma called_eq0 kws ls ok s s0 s1 : calls s = calls s0 -> called kws ls ok s s1 -> called kws ls ok s0 s1.
  Proof. intros E (c & a & b & H & Hr). exists c, a, b. rewrite <- E. split; assumption. Qed.
  Lemma called_weaken kws ls s s1 : called kws ls true s s1 -> called kws ls false s s1.
  Proof. intros (c & a & b & H & H2 & H3 & H4). exists c, a, b. repeat split; try assumption. discriminate. Qed.

  (** the log is only appended to by programs *)
  Definition keeps_calls {A} (m : M L A) : Prop := forall s r s', outcome (m s) (r, s') -> calls s' = calls s.
  Lemma keeps_bind {A B} (m : M L A) (f : A -> M L B) : keeps_calls m -> (forall a, keeps_calls (f a)) -> keeps_calls (mbind m f).
  Proof.
    intros Hm Hf s r s' H. apply outcome_mbind in H. destruct H as [(a & s1 & H1 & H2)|(e & -> & H1)].
    - rewrite (Hf _ _ _ _ H2). apply (Hm _ _ _ H1).
    - apply (Hm _ _ _ H1).
  Qed.
  Lemma keeps_lift {A} (x : res A) : keeps_calls (lift x).
  Proof. intros s r s' H. apply outcome_leaf in H. injection H as _ <-. reflexivity. Qed.
  Lemma keeps_ret {A} (x : A) : keeps_calls (ret x).
  Proof. intros s r s' H. apply outcome_leaf in H. injection H as _ <-. reflexivity. Qed.
  Lemma keeps_raise {A} e : keeps_calls (raise (A := A) e).
  Proof. intros s r s' H. apply outcome_leaf in H. injection H as _ <-. reflexivity. Qed.
  Lemma keeps_get : keeps_calls get.
  Proof. intros s r s' H. apply outcome_leaf in H. injection H as _ <-. reflexivity. Qed.
  Lemma keeps_massert b : keeps_calls (massert b).
  Proof. destruct b; [apply keeps_ret|apply keeps_raise]. Qed.
  Lemma keeps_update tr tr2 : keeps_calls (resample_update tr tr2).
  Proof.
    intros s r s' H. unfold resample_update in H. destruct (hook s (store s) tr tr2); apply outcome_leaf in H;
      injection H as _ <-; reflexivity.
  Qed.

  Definition mcalled {A} (kws : dict pyval) (ls : list (nat * sig * list pyval)) (m : M L A) : Prop :=
    forall s r s', outcome (m s) (r, s') -> called kws ls (is_ok r) s s'.
  Lemma mcalled_pre {A B} kws ls (m : M L A) (f : A -> M L B) :
    keeps_calls m -> (forall a, mcalled kws ls (f a)) -> mcalled kws ls (mbind m f).
  Proof.
    intros Hm Hf s r s' H. apply outcome_mbind in H. destruct H as [(a & s1 & H1 & H2)|(e & -> & H1)].
    - eapply called_eq0; [apply (Hm _ _ _ H1)|]. apply (Hf _ _ _ _ H2).
    - apply called_none. apply (Hm _ _ _ H1).
  Qed.
  Lemma mcalled_post {A B} kws ls (m : M L A) (f : A -> M L B) :
    mcalled kws ls m -> (forall a, keeps_calls (f a)) -> mcalled kws ls (mbind m f).
  Proof.
    intros Hm Hf s r s' H. apply outcome_mbind in H. destruct H as [(a & s1 & H1 & H2)|(e & -> & H1)].
    - apply called_eq with (s1 := s1); [symmetry; apply (Hf _ _ _ _ H2)|].
      specialize (Hm _ _ _ H1). cbn in Hm. destruct (is_ok r); [exact Hm|apply called_weaken, Hm].
    - apply (Hm _ _ _ H1).
  Qed.
  Lemma mcalled_seq {A B} kws l1 l2 (m : M L A) (f : A -> M L B) :
    mcalled kws l1 m -> (forall a, mcalled kws l2 (f a)) -> mcalled kws (l1 ++ l2) (mbind m f).
  Proof.
    intros Hm Hf s r s' H. apply outcome_mbind in H. destruct H as [(a & s1 & H1 & H2)|(e & -> & H1)].
    - eapply called_seq; [apply (Hm _ _ _ H1)|apply (Hf _ _ _ _ H2)].
    - apply called_stop, (Hm _ _ _ H1).
  Qed.
  Lemma mcalled_with {A} kws ls oid t (m : M L A) : mcalled kws ls m -> mcalled kws ls (with_substitution oid t m).
  Proof.
    intros Hm s r s' H. apply outcome_with_gen in H. destruct H as [(e & -> & ->)|(t' & s1 & _ & _ & H & ->)].
    - apply called_none. reflexivity.
    - apply Hm in H. exact H.
  Qed.
  Lemma mcalled_dispatch {A} kws ls t kws' (k : dict pyval -> M L A) :
    wf_dict kws' -> mcalled kws ls (k kws') -> mcalled kws ls (mdispatch t kws' k).
  Proof.
    intros W H. unfold mdispatch. destruct (clash ["fn"] kws').
    - intros s r s' Hr. apply outcome_leaf in Hr. injection Hr as <- <-. apply called_none. reflexivity.
    - rewrite dispatch_all by exact W. exact H.
  Qed.
  Lemma keeps_resample (t : stree L (res (list (string * rv L) * T L))) :
    keeps_calls (fun s => tbind t (fun r => Leaf (r, s))).
  Proof. intros s r s' H. apply outcome_tbind in H. destruct H as (x & _ & H). apply outcome_leaf in H. injection H as _ <-. reflexivity. Qed.

  Lemma passed_matches oid sg kws c cond : wf_dict kws ->
    call_matches kws (oid, sg, []) (mkCall oid c (passed sg kws) cond).
  Proof.
    intros W. split; [reflexivity|]. cbn [call_kwargs]. unfold passed.
    rewrite dmerge_app by (apply shape_app_wf, W).
    set (all := [("sample_dims", kwarg "sample_dims" VNone kws); ("batch_dim", kwarg "batch_dim" VNone kws);
       ("reparameterized", kwarg "reparameterized" (VBool true) kws)] ++ _).
    assert (Wall : wf_dict all) by (apply shape_app_wf, W).
    split; [apply wf_filter, Wall|]. intros k v.
    assert (Ha : dget k all = offered [] kws k).
    { unfold all, offered. rewrite dget_app. cbn [dget].
      destruct (String.eqb_spec k "sample_dims") as [->|N3]; [reflexivity|].
      destruct (String.eqb_spec k "batch_dim") as [->|N4]; [reflexivity|].
      destruct (String.eqb_spec k "reparameterized") as [->|N5]; [reflexivity|].
      assert (Hm : mem k ["sample_dims"; "batch_dim"; "reparameterized"] = false) by (apply mem_not_In; cbn; intuition congruence).
      clear - Hm. induction kws as [|[y w] d IH]; [reflexivity|]. cbn [filter fst dget].
      destruct (String.eqb_spec k y) as [<-|Hne].
      - rewrite Hm. cbn [negb dget]. rewrite String.eqb_refl. reflexivity.
      - destruct (negb _); cbn [dget]; [destruct (String.eqb_spec k y); [contradiction|]|]; exact IH. }
    rewrite <- Ha, <- accepts_spec. split.
    - intros H. apply dget_In in H. apply filter_In in H. destruct H as [H1 H2]. split; [exact H2|]. apply In_dget; assumption.
    - intros [H1 H2]. apply In_dget; [apply wf_filter, Wall|]. apply filter_In. split; [apply dget_In, H2|exact H1].
  Qed.

  Lemma forward_called oid sg m c kws : wf_dict kws -> mcalled kws [(oid, sg, [])] (forward oid sg m c kws).
  Proof.
    intros W s r s' H. unfold forward in H. fold (passed sg kws) in H.
    destruct (clash ["self"] kws || _).
    { apply outcome_leaf in H. injection H as <- <-. apply called_none. reflexivity. }
    rewrite mbind_get, mbind_modify in H.
    set (s0 := log_call (mkCall oid c (passed sg kws) (get_cond oid s)) s) in H.
    assert (E : calls s' = calls s0).
    { apply outcome_mbind in H. destruct H as [([o tr] & s1 & H1 & H2)|(e & -> & H1)].
      - apply exec_inv in H1; [|apply wf_nil]. destruct H1 as (_ & _ & <- & _).
        apply outcome_mbind in H2. destruct H2 as [(lw & s2 & H2 & H3)|(e & -> & H2)].
        + apply keeps_lift in H2. apply keeps_ret in H3. congruence.
        + apply keeps_lift in H2. exact H2.
      - apply exec_inv in H1; [|apply wf_nil]. apply H1. }
    exists [mkCall oid c (passed sg kws) (get_cond oid s)], [(oid, sg, [])], []. rewrite E.
    split; [reflexivity|]. split; [reflexivity|].
    split; [constructor; [apply passed_matches, W|constructor]|]. intros _. reflexivity.
  Qed.

  Lemma run_called t : forall c kws, wf_dict kws -> mcalled kws (leaves [] t) (run t c kws).
  Proof.
    assert (Sub : forall (A : Type) self_ix kws ls (m : M L A), wf_dict kws ->
      mcalled (sub_kwargs self_ix kws) ls m -> mcalled kws (map (fun l => (fst l, snd l ++ [self_ix])) ls) m).
    { intros A self_ix kws ls m W H s r s' Ho. apply called_sub; [exact W|]. apply H, Ho. }
    assert (Bind : forall kws ls (f : bound L -> M L (out L)),
      (forall b, bind_call kws = Ok b -> mcalled kws ls (f b)) -> mcalled kws ls (mbind (lift (bind_call kws)) f)).
    { intros kws ls f H s r s' Ho. apply outcome_mbind in Ho. destruct Ho as [(b & s1 & H1 & H2)|(e & -> & H1)].
      - apply ret_lift in H1. destruct H1 as [Hb <-]. apply (H b Hb _ _ _ H2).
      - apply outcome_leaf in H1. injection H1 as _ <-. apply called_none. reflexivity. }
    induction t as [oid sg m|oid q IHq ix l0 rs dbg|oid p IHp f IHf o|oid q2 IH2 q1 IH1 o|oid p IHp q IHq o tf nr];
      intros c kws W; cbn [run leaves].
    - apply forward_called, W.
    - change [ix] with ([] ++ [ix]). rewrite leaves_snoc. apply Bind. intros b Hb. rewrite (sub_kwargs_eq kws b ix Hb).
      apply mcalled_post; [apply Sub; [exact W|]; apply IHq, wf_sub_kwargs, W|]. intros qo.
      apply keeps_bind; [apply keeps_resample|]. intros [i lw].
      apply keeps_bind; [destruct (out_output qo); first [apply keeps_raise|apply keeps_lift]|]. intros c2.
      apply keeps_bind; [apply keeps_update|]. intros u.
      apply keeps_bind; [apply keeps_lift|]. intros r. apply keeps_ret.
    - change [in_ix o] with ([] ++ [in_ix o]). rewrite !leaves_snoc. apply Bind. intros b Hb. rewrite (sub_kwargs_eq kws b _ Hb).
      apply mcalled_pre; [apply keeps_get|]. intros s0.
      apply mcalled_post.
      + apply mcalled_with, mcalled_with. apply mcalled_seq.
        * apply mcalled_dispatch; [apply wf_sub_kwargs, W|]. apply Sub; [exact W|]. apply IHp, wf_sub_kwargs, W.
        * intros po. apply mcalled_post; [|intros fo; apply keeps_ret].
          apply mcalled_dispatch; [apply wf_sub_kwargs, W|]. apply Sub; [exact W|]. apply IHf, wf_sub_kwargs, W.
      + intros [po fo]. apply keeps_bind; [apply keeps_get|]. intros s1.
        apply keeps_bind; [destruct (get_cond oid s1); [apply keeps_massert|]|].
        { apply keeps_bind; [apply keeps_lift|]. intros z. apply keeps_bind; [apply keeps_massert|]. intros u. apply keeps_massert. }
        intros u. apply keeps_bind; [apply keeps_massert|]. intros u2.
        apply keeps_bind; [apply keeps_lift|]. intros lu. apply keeps_bind; [apply keeps_lift|]. intros tr.
        apply keeps_bind; [apply keeps_lift|]. intros r. apply keeps_ret.
    - change [in_ix o] with ([] ++ [in_ix o]). rewrite !leaves_snoc. apply Bind. intros b Hb. rewrite (sub_kwargs_eq kws b _ Hb).
      apply mcalled_seq.
      + apply mcalled_dispatch; [apply wf_sub_kwargs, W|]. apply Sub; [exact W|]. apply IH1, wf_sub_kwargs, W.
      + intros o1. apply mcalled_post.
        * apply mcalled_dispatch; [apply wf_sub_kwargs, W|]. apply Sub; [exact W|]. apply IH2, wf_sub_kwargs, W.
        * intros o2. apply keeps_bind; [apply keeps_lift|]. intros tr. apply keeps_bind; [apply keeps_massert|]. intros u.
          apply keeps_bind; [apply keeps_lift|]. intros r. apply keeps_ret.
    - change [in_ix o] with ([] ++ [in_ix o]). rewrite !leaves_snoc.
      apply mcalled_pre; [apply keeps_massert|]. intros u.
      apply Bind. intros b Hb. rewrite (sub_kwargs_eq kws b _ Hb).
      apply mcalled_seq.
      + apply mcalled_dispatch; [apply wf_sub_kwargs, W|]. apply Sub; [exact W|]. apply IHq, wf_sub_kwargs, W.
      + intros qo. apply mcalled_post.
        * apply mcalled_with. apply mcalled_dispatch; [apply wf_sub_kwargs, W|]. apply Sub; [exact W|]. apply IHp, wf_sub_kwargs, W.
        * intros po. apply keeps_bind; [apply keeps_lift|]. intros qt. apply keeps_bind; [apply keeps_lift|]. intros lu.
          apply keeps_bind; [apply keeps_lift|]. intros [mo mt]. apply keeps_bind; [apply keeps_lift|]. intros tr.
          apply keeps_bind; [destruct (is_tensor L _); [apply keeps_ret|apply keeps_raise]|]. intros lw.
          apply keeps_bind; [apply keeps_lift|]. intros pt. apply keeps_bind; [apply keeps_lift|]. intros tt'.
          apply keeps_bind; [apply keeps_lift|]. intros fw. apply keeps_bind; [apply keeps_lift|]. intros r. apply keeps_ret.
  Qed.

  Lemma run_calls t c kws s (r : res (out L)) s' :
    wf_dict kws -> outcome (run t c kws s) (r, s') ->
    exists cs ls1 ls2, calls s' = calls s ++ cs /\ leaves [] t = ls1 ++ ls2 /\
      Forall2 (call_matches kws) ls1 cs /\ (forall o, r = Ok o -> ls2 = []).
  Proof.
    intros W H. destruct (run_called t c kws W _ _ _ H) as (cs & l1 & l2 & E & El & F & O).
    exists cs, l1, l2. repeat split; try assumption. intros o ->. apply O. reflexivity.
  Qed.
End Calls.

(** ** C19 *)
Section Loss.
  Context {L : lib}.

  Lemma program_loss oid sg m c kws s (o : out L) s' :
    returns (run (IProg oid sg m) c kws) s o s' -> out_loss o = None.
  Proof. intros H. apply forward_returns in H. destruct H as (? & ? & ? & ? & ? & _ & _ & _ & _ & _ & _ & _ & ->). reflexivity. Qed.

  Lemma before_loss_built d subs (r0 : out L) l : out_loss r0 = None -> out_subs r0 = [] ->
    before_loss (add_subs d subs (with_loss r0 l)) = r0 /\ out_loss (add_subs d subs (with_loss r0 l)) = Some l.
  Proof. destruct r0; cbn. intros -> ->. destruct d; split; reflexivity. Qed.

  Definition spine_child (t : inf L) : option (inf L) :=
    match t with
    | IProg _ _ _ => None
    | IResample _ q _ _ _ _ => Some q | IExtend _ p _ _ => Some p | ICompose _ _ q1 _ => Some q1 | IPropose _ _ q _ _ _ => Some q
    end.

  (** what is claimed of the loss of a result [r] of [t], called on [c] *)
  Definition loss_folds (t : inf L) c (r : out L) : Prop :=
    match t with
    | IProg _ _ _ => out_loss r = None
    | _ => exists rs l,
             Forall2 (fun u ru => exists kws s o s', returns (run u c kws) s o s' /\ ru = before_loss o) (spine t) rs /\
             hd_error rs = Some (before_loss r) /\
             fold_losses (map loss_fn (spine t)) rs (spine_loss0 t) = Ok l /\ out_loss r = Some l
    end.
  Lemma run_loss t : forall c kws s (r : out L) s', wf_dict kws -> wf_st s ->
    returns (run t c kws) s r s' -> loss_folds t c r.
  Proof.
    assert (Step : forall (t child : inf L) c kws s s' (co : out L) l0 (r0 r : out L) d subs l,
      returns (run t c kws) s r s' -> loss_folds child c co ->
      out_loss r0 = None -> out_subs r0 = [] ->
      loss_fn t r0 (match out_loss co with Some l => l | None => match l0 with Some l => l | None => tzero L end end) = Ok l ->
      r = add_subs d subs (with_loss r0 l) ->
      exists rs l,
        Forall2 (fun u ru => exists kws s o s', returns (run u c kws) s o s' /\ ru = before_loss o) (t :: spine child) rs /\
        hd_error rs = Some (before_loss r) /\
        fold_losses (map loss_fn (t :: spine child)) rs
          (match child with IProg _ _ _ => match l0 with Some l => l | None => tzero L end | _ => spine_loss0 child end) = Ok l /\
        out_loss r = Some l).
    { clear t. intros t child c kws s s' co l0 r0 r d subs l Ht Hc H0 Hs Hl Er.
      destruct (before_loss_built d subs r0 l H0 Hs) as [Eb El]. rewrite <- Er in Eb, El.
      destruct child as [oid sg m| | | |].
      1:{ exists [r0], l. rewrite Eb, El. split; [|split; [reflexivity|split; [|reflexivity]]].
          - constructor; [|constructor]. exists kws, s, r, s'. split; [exact Ht|symmetry; exact Eb].
          - cbn. cbn in Hc. rewrite Hc in Hl. exact Hl. }
      all: destruct Hc as (rl & lc & HF & Hh & Hf & Hc); exists (r0 :: rl), l; rewrite Eb, El;
        split; [constructor; [exists kws, s, r, s'; split; [exact Ht|symmetry; exact Eb]|exact HF]|];
        split; [reflexivity|]; split; [|reflexivity];
        cbn [fold_losses map]; rewrite Hf; cbn [rbind]; rewrite Hc in Hl; exact Hl. }
    induction t as [oid sg m|oid q IHq ix l0 rl dbg|oid p IHp f IHf o|oid q2 IH2 q1 IH1 o|oid p IHp q IHq o tf nr];
      intros c kws s r s' W Ws H; pose proof H as H0; unfold loss_folds; cbn [spine spine_loss0].
    - eapply program_loss, H.
    - apply run_resample_returns in H; [|exact W].
      destruct H as (qo & s1 & items & lw2 & c1 & c2 & st2 & _ & Hq & _ & _ & _ & _ & _ & Hr).
      specialize (IHq _ _ _ _ _ (wf_sub_kwargs _ _ W) Ws Hq).
      match type of Hr with r = add_subs ?dd ?ss (mkOut ?a ?b ?cc ?d ?e (Some ?l) ?g ?h ?i) =>
        exact (Step _ q c _ _ _ qo l0 (mkOut a b cc d e None g h i) r dd ss l H0 IHq eq_refl eq_refl eq_refl Hr) end.
    - apply run_extend_returns in H; [|exact W|exact Ws].
      destruct H as (po & s1 & fo & s2 & lu & tr & l & _ & _ & Hp & _ & _ & _ & _ & _ & _ & _ & Hl & Hr).
      assert (Ws1 : wf_st (set_cond (oid_of f) (get_cond oid s) (set_cond (oid_of p) (get_cond oid s) s))).
      { apply wf_set_cond; [apply wf_set_cond; [exact Ws|]|]; intros t Ht; eapply Ws, Ht. }
      specialize (IHp _ _ _ _ _ (wf_sub_kwargs _ _ W) Ws1 Hp).
      refine (Step _ p c _ _ _ po (in_loss0 o) _ r _ _ _ H0 IHp _ _ Hl Hr); reflexivity.
    - apply run_compose_returns in H; [|exact W].
      destruct H as (o1 & s1 & o2 & tr & l & _ & _ & H1 & _ & _ & _ & Hl & Hr).
      specialize (IH1 _ _ _ _ _ (wf_sub_kwargs _ _ W) Ws H1).
      refine (Step _ q1 c _ _ _ o1 (in_loss0 o) _ r _ _ _ H0 IH1 _ _ Hl Hr); reflexivity.
    - apply run_propose_returns in H; [|exact W|].
      2:{ intros qo s1 Hq. exact (proj1 (run_returns_wf _ _ _ _ _ _ (wf_sub_kwargs _ _ W) Ws Hq)). }
      destruct H as (qo & s1 & po & s2 & qt & lu & mo & mt & tr & pt & tt' & fw & l & _ & _ & _ & Hq & _ & _ & _ & _ & _ & _ & _ & _ & _ & _ & Hl & Hr).
      specialize (IHq _ _ _ _ _ (wf_sub_kwargs _ _ W) Ws Hq).
      refine (Step _ q c _ _ _ qo (in_loss0 o) _ r _ _ _ H0 IHq _ _ Hl Hr); reflexivity.
  Qed.
End Loss.

(** ** C14, C15, C20: the remaining parts *)
Section More.
  Context {L : lib}.

  Lemma set_none_keeps i j (s : st L) : get_cond i s = None -> get_cond i (set_cond j None s) = None.
  Proof. intros H. apply set_cond_none; [right; reflexivity|exact H]. Qed.
  Lemma set_none_same i (s : st L) : get_cond i (set_cond i None s) = None.
  Proof. apply get_set_same. Qed.

  (** on return, every object that was given a conditioning trace has lost it *)
  Lemma run_releases t : forall c kws s (r : out L) s', wf_dict kws -> wf_st s ->
    returns (run t c kws) s r s' -> forall i, In i (substituted t) -> get_cond i s' = None.
  Proof.
    induction t as [oid sg m|oid q IHq ix l0 rs dbg|oid p IHp f IHf o|oid q2 IH2 q1 IH1 o|oid p IHp q IHq o tf nr];
      intros c kws s r s' W Ws H i Hi; cbn [substituted] in Hi.
    - contradiction.
    - apply run_resample_returns in H; [|exact W].
      destruct H as (qo & s1 & items & lw2 & c1 & c2 & st2 & _ & Hq & _ & _ & _ & _ & -> & _).
      exact (IHq _ _ _ _ _ (wf_sub_kwargs _ _ W) Ws Hq i Hi).
    - apply run_extend_returns in H; [|exact W|exact Ws].
      destruct H as (po & s1 & fo & s2 & lu & tr & l & _ & _ & Hp & Hf & -> & _).
      assert (Ws1 : wf_st (set_cond (oid_of f) (get_cond oid s) (set_cond (oid_of p) (get_cond oid s) s))).
      { apply wf_set_cond; [apply wf_set_cond; [exact Ws|]|]; intros t Ht; eapply Ws, Ht. }
      destruct Hi as [<-|[<-|Hi]]; [apply set_none_same|apply set_none_keeps, set_none_same|].
      apply set_none_keeps, set_none_keeps. apply in_app_iff in Hi. destruct Hi as [Hi|Hi].
      + apply (proj1 (proj2 (run_scoped _ _ _ _ _ _ _ Hf))). eapply IHp; [apply wf_sub_kwargs, W|exact Ws1|exact Hp|exact Hi].
      + eapply IHf; [apply wf_sub_kwargs, W| |exact Hf|exact Hi].
        exact (proj2 (run_returns_wf _ _ _ _ _ _ (wf_sub_kwargs _ _ W) Ws1 Hp)).
    - apply run_compose_returns in H; [|exact W].
      destruct H as (o1 & s1 & o2 & tr & l & _ & _ & H1 & H2 & _).
      apply in_app_iff in Hi. destruct Hi as [Hi|Hi].
      + apply (proj1 (proj2 (run_scoped _ _ _ _ _ _ _ H2))). eapply IH1; [apply wf_sub_kwargs, W|exact Ws|exact H1|exact Hi].
      + eapply IH2; [apply wf_sub_kwargs, W| |exact H2|exact Hi].
        exact (proj2 (run_returns_wf _ _ _ _ _ _ (wf_sub_kwargs _ _ W) Ws H1)).
    - apply run_propose_returns in H; [|exact W|].
      2:{ intros qo s1 Hq. exact (proj1 (run_returns_wf _ _ _ _ _ _ (wf_sub_kwargs _ _ W) Ws Hq)). }
      destruct H as (qo & s1 & po & s2 & qt & lu & mo & mt & tr & pt & tt' & fw & l & _ & _ & _ & Hq & Hp & -> & _).
      destruct (run_returns_wf _ _ _ _ _ _ (wf_sub_kwargs _ _ W) Ws Hq) as [Wq Ws1].
      destruct (Nat.eq_dec i (oid_of p)) as [->|Hne]; [apply set_none_same|].
      destruct Hi as [<-|Hi]; [contradiction|]. apply set_none_keeps.
      apply in_app_iff in Hi. destruct Hi as [Hi|Hi].
      + apply (proj1 (proj2 (run_scoped _ _ _ _ _ _ _ Hp))). rewrite get_set_other by exact Hne.
        eapply IHq; [apply wf_sub_kwargs, W|exact Ws|exact Hq|exact Hi].
      + eapply IHp; [apply wf_sub_kwargs, W| |exact Hp|exact Hi].
        apply wf_set_cond; [exact Ws1|]. intros t [= <-]. exact Wq.
  Qed.

  Lemma scoped_all t c kws s (r : res (out L)) s' :
    outcome (run t c kws s) (r, s') ->
    (forall i, get_cond i s' = get_cond i s \/ get_cond i s' = None) /\
    (forall i, ~ In i (substituted t) -> get_cond i s' = get_cond i s) /\
    (clean s -> clean s') /\
    (wf_dict kws -> wf_st s -> forall o, r = Ok o -> forall i, In i (substituted t) -> get_cond i s' = None).
  Proof.
    intros H. split; [|split; [|split]].
    - intros i. destruct (run_cond _ _ _ _ _ _ _ H i) as [E|[E _]]; tauto.
    - exact (proj1 (run_scoped _ _ _ _ _ _ _ H)).
    - intros Hc i. apply (proj1 (proj2 (run_scoped _ _ _ _ _ _ _ H))), Hc.
    - intros W Ws o ->. eapply run_releases; eassumption.
  Qed.

  (** after any history, a call is like the same call in a state where nothing ever happened
      but the assignments to the global store *)
  Lemma session_fresh s s' t c kws :
    clean s -> session s s' ->
    same_draws same_end (run (L := L) t c kws s') (run t c kws (mkSt [] (store s') (hook s) [])).
  Proof.
    intros Hc Hs. destruct (calls_scoped _ _ _ Hs) as [Hk Hh].
    eapply sd_impl; [|apply run_agree].
    - intros [r1 s1] [r2 s2] [Hr Ha]. split; [|apply Ha]. destruct r1, r2; cbn in *; try contradiction; congruence.
    - split; [|split; [reflexivity|exact Hh]]. intros i. rewrite Hk by apply Hc. reflexivity.
  Qed.

  Lemma run_reports t c kws s (r : out L) s' : wf_dict kws -> wf_st s ->
    returns (run t c kws) s r s' ->
    if debugging t kws
    then Forall2 (fun np nr => fst nr = fst np /\
           exists c' kws' s1 s2, returns (run (snd np) c' kws') s1 (snd nr) s2) (intermediate t) (out_subs r)
    else out_subs r = [].
  Proof.
    intros W Ws H. unfold debugging.
    destruct t as [oid sg m|oid q ix l0 rs dbg|oid p f o|oid q2 q1 o|oid p q o tf nr]; cbn [intermediate].
    - apply forward_returns in H. destruct H as (? & ? & ? & ? & ? & _ & _ & _ & _ & _ & _ & _ & ->). cbn [out_subs].
      destruct (_ || _); constructor.
    - apply run_resample_returns in H; [|exact W].
      destruct H as (qo & s1 & items & lw2 & c1 & c2 & st2 & _ & Hq & _ & _ & _ & _ & _ & ->).
      destruct (_ || _); [|reflexivity]. constructor; [|constructor]. split; [reflexivity|]. repeat eexists. exact Hq.
    - apply run_extend_returns in H; [|exact W|exact Ws].
      destruct H as (po & s1 & fo & s2 & lu & tr & l & _ & _ & Hp & Hf & _ & _ & _ & _ & _ & _ & _ & ->).
      destruct (_ || _); [|reflexivity]. constructor; [|constructor; [|constructor]]; (split; [reflexivity|]); repeat eexists; [exact Hp|exact Hf].
    - apply run_compose_returns in H; [|exact W].
      destruct H as (o1 & s1 & o2 & tr & l & _ & _ & H1 & H2 & _ & _ & _ & ->).
      destruct (_ || _); [|reflexivity]. constructor; [|constructor; [|constructor]]; (split; [reflexivity|]); repeat eexists; [exact H1|exact H2].
    - apply run_propose_returns in H; [|exact W|].
      2:{ intros qo s1 Hq. exact (proj1 (run_returns_wf _ _ _ _ _ _ (wf_sub_kwargs _ _ W) Ws Hq)). }
      destruct H as (qo & s1 & po & s2 & qt & lu & mo & mt & tr & pt & tt' & fw & l & _ & _ & _ & Hq & Hp & _ & _ & _ & _ & _ & _ & _ & _ & _ & _ & ->).
      destruct (_ || _); [|reflexivity]. constructor; [|constructor; [|constructor]]; (split; [reflexivity|]); repeat eexists; [exact Hq|exact Hp].
  Qed.
End More.
