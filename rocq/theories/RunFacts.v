(** Inversion lemmas for the monad and for [run]. *)
From Verif Require Export TraceFacts.

Section Monad.
  Context {L : lib}.

  Lemma outcome_leaf {A} (a b : A) : outcome (L := L) (Leaf a) b <-> a = b.
  Proof. split; [intros H; inversion H; reflexivity|intros ->; constructor]. Qed.
  Lemma outcome_draw {A} d (k : T L -> stree L A) b : outcome (Draw d k) b <-> exists v, outcome (k v) b.
  Proof.
    split; [intros H; inversion H; subst; eexists; eassumption|intros [v H]; econstructor; exact H].
  Qed.
  Lemma outcome_tbind {A B} (t : stree L A) (f : A -> stree L B) b :
    outcome (tbind t f) b <-> exists a, outcome t a /\ outcome (f a) b.
  Proof.
    split.
    - induction t as [a|d k IH]; cbn.
      + intros H. exists a. split; [constructor|exact H].
      + intros H. apply outcome_draw in H. destruct H as [v H]. destruct (IH v H) as (a & Ha & Hf).
        exists a. split; [econstructor; exact Ha|exact Hf].
    - intros (a & Ha & Hf). induction Ha as [a|d k v a Ha IH]; cbn; [exact Hf|].
      econstructor. apply IH, Hf.
  Qed.
  Lemma outcome_mbind {A B} (m : M L A) (f : A -> M L B) s r s' :
    outcome (mbind m f s) (r, s') <->
    (exists a s1, outcome (m s) (Ok a, s1) /\ outcome (f a s1) (r, s')) \/
    (exists e, r = Err e /\ outcome (m s) (Err e, s')).
  Proof.
    unfold mbind. rewrite outcome_tbind. split.
    - intros ([[a|e] s1] & H1 & H2); cbn in H2.
      + left. exists a, s1. split; assumption.
      + right. apply outcome_leaf in H2. injection H2 as <- <-. exists e. split; [reflexivity|exact H1].
    - intros [(a & s1 & H1 & H2)|(e & -> & H1)].
      + exists (Ok a, s1). split; [exact H1|exact H2].
      + exists (Err e, s'). split; [exact H1|constructor].
  Qed.
  Lemma ret_mbind {A B} (m : M L A) (f : A -> M L B) s b s' :
    returns (mbind m f) s b s' <-> exists a s1, returns m s a s1 /\ returns (f a) s1 b s'.
  Proof.
    unfold returns. rewrite outcome_mbind. split.
    - intros [H|(e & E & _)]; [exact H|discriminate].
    - intros H. left. exact H.
  Qed.
  Lemma ret_ret {A} (a b : A) (s s' : st L) : returns (ret a) s b s' <-> a = b /\ s = s'.
  Proof. unfold returns, ret. rewrite outcome_leaf. split; [intros [= -> ->]; tauto|intros [-> ->]; reflexivity]. Qed.
  Lemma ret_lift {A} (r : res A) b (s s' : st L) : returns (lift r) s b s' <-> r = Ok b /\ s = s'.
  Proof. unfold returns, lift. rewrite outcome_leaf. split; [intros [= -> ->]; tauto|intros [-> ->]; reflexivity]. Qed.
  Lemma ret_get (x : st L) (s s' : st L) : returns get s x s' <-> x = s /\ s' = s.
  Proof. unfold returns, get. rewrite outcome_leaf. split; [intros [= -> ->]; tauto|intros [-> ->]; reflexivity]. Qed.
  Lemma ret_modify f u (s s' : st L) : returns (modify f) s u s' <-> s' = f s.
  Proof. unfold returns, modify. rewrite outcome_leaf. destruct u. split; [intros [= <-]; reflexivity|intros ->; reflexivity]. Qed.
  Lemma ret_raise {A} e (b : A) (s s' : st L) : returns (raise e) s b s' <-> False.
  Proof. unfold returns, raise. rewrite outcome_leaf. split; [discriminate|tauto]. Qed.
  Lemma ret_massert b u (s s' : st L) : returns (massert b) s u s' <-> b = true /\ s = s'.
  Proof.
    unfold massert. destruct b.
    - rewrite ret_ret. destruct u. tauto.
    - rewrite ret_raise. split; [tauto|intros [H _]; discriminate].
  Qed.
  Lemma outcome_mfinally {A} (m : M L A) f (r : res A) s s' :
    outcome (mfinally m f s) (r, s') <-> exists s1, outcome (m s) (r, s1) /\ s' = f s1.
  Proof.
    unfold mfinally. rewrite outcome_tbind. split.
    - intros ([r1 s1] & H1 & H2). apply outcome_leaf in H2. injection H2 as <- <-. eauto.
    - intros (s1 & H1 & ->). exists (r, s1). split; [exact H1|constructor].
  Qed.
  Lemma ret_mfinally {A} (m : M L A) f a s s' :
    returns (mfinally m f) s a s' <-> exists s1, returns m s a s1 /\ s' = f s1.
  Proof. apply outcome_mfinally. Qed.

  (** the block of a with-statement *)
  Lemma outcome_with {A} oid (t : option (trace L)) (m : M L A) s r s' :
    (forall tr, t = Some tr -> wf_dict tr) ->
    (outcome (with_substitution oid t m s) (r, s') <->
     exists s1, outcome (m (set_cond oid t s)) (r, s1) /\ s' = set_cond oid None s1).
  Proof.
    intros Hwf. unfold with_substitution. rewrite outcome_mbind.
    assert (Hc : match t with None => ret None
                 | Some tr => lift (rmap Some (copytraces no_excl NoOverlaps [tr])) end = ret (L := L) t).
    { destruct t as [tr|]; [|reflexivity]. rewrite copytraces_one by (apply Hwf; reflexivity). reflexivity. }
    rewrite Hc. split.
    - intros [(a & s1 & H1 & H2)|(e & -> & H1)].
      + apply ret_ret in H1. destruct H1 as [<- <-].
        apply outcome_mbind in H2. destruct H2 as [(u & s2 & H2 & H3)|(e & -> & H2)].
        * apply ret_modify in H2. subst s2. apply outcome_mfinally in H3. exact H3.
        * unfold modify in H2. apply outcome_leaf in H2. discriminate.
      + unfold ret in H1. apply outcome_leaf in H1. discriminate.
    - intros (s1 & H1 & ->). left. exists t, s. split; [constructor|].
      apply outcome_mbind. left. exists tt, (set_cond oid t s). split; [constructor|].
      apply outcome_mfinally. exists s1. split; [exact H1|reflexivity].
  Qed.
  Lemma ret_with {A} oid (t : option (trace L)) (m : M L A) s a s' :
    (forall tr, t = Some tr -> wf_dict tr) ->
    (returns (with_substitution oid t m) s a s' <->
     exists s1, returns m (set_cond oid t s) a s1 /\ s' = set_cond oid None s1).
  Proof. apply outcome_with. Qed.

  (** *** conditioning table *)
  Lemma cget_cdel_same i l : cget (L := L) i (cdel i l) = None.
  Proof.
    induction l as [|[j t] l IH]; cbn; [reflexivity|].
    destruct (Nat.eqb_spec i j) as [->|Hne]; cbn; [exact IH|].
    destruct (Nat.eqb_spec i j); [congruence|exact IH].
  Qed.
  Lemma cget_cdel_other i j l : i <> j -> cget (L := L) i (cdel j l) = cget i l.
  Proof.
    intros Hne. induction l as [|[k t] l IH]; cbn; [reflexivity|].
    destruct (Nat.eqb_spec j k) as [->|Hjk]; cbn.
    - destruct (Nat.eqb_spec i k); [congruence|exact IH].
    - destruct (Nat.eqb i k); [reflexivity|exact IH].
  Qed.
  Lemma get_set_same i (t : option (trace L)) s : get_cond i (set_cond i t s) = t.
  Proof.
    unfold get_cond, set_cond, cset. cbn. destruct t as [t|]; cbn.
    - rewrite Nat.eqb_refl. reflexivity.
    - apply cget_cdel_same.
  Qed.
  Lemma get_set_other i j (t : option (trace L)) s : i <> j -> get_cond i (set_cond j t s) = get_cond i s.
  Proof.
    intros Hne. unfold get_cond, set_cond, cset. cbn. destruct t as [t|]; cbn.
    - destruct (Nat.eqb_spec i j); [congruence|]. apply cget_cdel_other, Hne.
    - apply cget_cdel_other, Hne.
  Qed.
  Lemma wf_set_cond i (t : option (trace L)) s :
    wf_st s -> (forall tr, t = Some tr -> wf_dict tr) -> wf_st (set_cond i t s).
  Proof.
    intros Hs Ht j tr. destruct (Nat.eq_dec j i) as [->|Hne].
    - rewrite get_set_same. apply Ht.
    - rewrite get_set_other by exact Hne. apply Hs.
  Qed.
End Monad.

Ltac inv_ret H :=
  repeat match type of H with
  | exists _, _ => let x := fresh "x" in destruct H as [x H]
  | _ /\ _ => let H1 := fresh "H" in destruct H as [H1 H]
  | returns (mbind _ _) _ _ _ => apply ret_mbind in H
  end.

Section Exec.
  Context {L : lib}.

  Lemma add_node_wf name r (tr tr' : trace L) :
    wf_dict tr -> add_node name r tr = Ok tr' -> wf_dict tr' /\ ~ In name (dkeys tr) /\ tr' = tr ++ [(name, r)].
  Proof.
    unfold add_node. intros Hwf H. destruct (dmem name tr) eqn:E; [discriminate|].
    injection H as <-. apply dmem_not_In in E.
    split; [apply wf_dset, Hwf|]. split; [exact E|apply dset_new, E].
  Qed.

  (** running a model preserves the dict invariant and does not touch the conditioning *)
  Lemma exec_inv cond m : forall (tr : trace L) s r s',
    wf_dict tr -> outcome (exec cond m tr s) (r, s') ->
    conds s' = conds s /\ hook s' = hook s /\ calls s' = calls s /\
    (forall o tr', r = Ok (o, tr') -> wf_dict tr').
  Proof.
    induction m as [o|e|name d value rep k IH|name r0 k IH|k IH|k IH|d rep shape k IH|key k IH|key v k IH];
      intros tr s r s' Hwf H; cbn [exec] in H.
    - apply outcome_leaf in H. injection H as <- <-. repeat split. intros o' tr' E. injection E as -> ->. exact Hwf.
    - apply outcome_leaf in H. injection H as <- <-. repeat split. intros o' tr' E. discriminate.
    - assert (Hfin : forall v p s0, outcome (mbind (lift (add_node name (mkRV (Proper d) v (logp L d v) p rep true) tr))
                (fun tr' => exec cond (k v) tr') s0) (r, s') -> conds s' = conds s0 /\ hook s' = hook s0 /\ calls s' = calls s0 /\
    (forall o tr', r = Ok (o, tr') -> wf_dict tr')).
      { intros v p s0 H0. apply outcome_mbind in H0. destruct H0 as [(tr1 & s1 & H1 & H2)|(e & -> & H1)].
        - apply ret_lift in H1. destruct H1 as [H1 <-]. apply add_node_wf in H1; [|exact Hwf].
          destruct H1 as (Hwf1 & _). apply (IH _ _ _ _ _ Hwf1 H2).
        - unfold lift in H1. apply outcome_leaf in H1. injection H1 as _ <-. repeat split. intros; discriminate. }
      destruct value as [[v pv]|].
      + apply (Hfin _ _ _ H).
      + destruct (match cond with Some ct => dget name ct | None => None end) as [r1|].
        * apply (Hfin _ _ _ H).
        * apply outcome_draw in H. destruct H as [v H]. apply (Hfin _ _ _ H).
    - apply (IH (dset name r0 tr) s r s'); [apply wf_dset, Hwf|exact H].
    - apply (IH _ tr s r s' Hwf H).
    - apply (IH _ tr s r s' Hwf H).
    - apply outcome_draw in H. destruct H as [v H]. apply (IH _ tr s r s' Hwf H).
    - apply (IH _ tr s r s' Hwf H).
    - destruct (IH tr _ r s' Hwf H) as (H1 & H2 & H3 & H4). cbn in *. repeat split; assumption.
  Qed.
End Exec.

Section Kwargs.
  Context {L : lib}.
  Notation pyval := (pyval (T L)).

  Lemma kwargs_for_all (f : sig) (nxt : dict pyval) : s_varkw f = true -> kwargs_for f nxt [] = nxt.
  Proof.
    intros H. unfold kwargs_for. induction nxt as [|kv nxt IH]; cbn; [reflexivity|].
    unfold check_passable_kwarg at 1. rewrite H. cbn. f_equal. exact IH.
  Qed.
  Lemma kwargs_for_none (f : sig) (nxt prev : dict pyval) :
    (forall k, In k (dkeys nxt) -> In k (dkeys prev)) -> kwargs_for f nxt prev = [].
  Proof.
    intros H. unfold kwargs_for. induction nxt as [|[k v] nxt IH]; cbn; [reflexivity|].
    assert (Hm : dmem k prev = true) by (apply dmem_In, H; left; reflexivity).
    rewrite Hm. rewrite andb_false_r. apply IH. intros x Hx. apply H. right; exact Hx.
  Qed.
  Lemma dmerge_nil (d : dict pyval) : wf_dict d -> dmerge [] d = d.
  Proof.
    unfold dmerge. assert (H : forall acc, wf_dict (acc ++ d) ->
      fold_left (fun a kv => dset (fst kv) (snd kv) a) d acc = acc ++ d).
    { induction d as [|[k v] d IH]; intros acc Hwf; cbn; [rewrite app_nil_r; reflexivity|].
      unfold wf_dict in Hwf. rewrite dkeys_app in Hwf. cbn in Hwf.
      assert (Hni : ~ In k (dkeys acc)).
      { apply NoDup_remove_2 in Hwf. intros Hin. apply Hwf, in_or_app. left; exact Hin. }
      rewrite dset_new by exact Hni. rewrite IH.
      - rewrite <- app_assoc. reflexivity.
      - unfold wf_dict. rewrite !dkeys_app, <- app_assoc. exact Hwf. }
    intros Hwf. apply (H [] Hwf).
  Qed.
  (** the library's callables all accept ** keyword arguments: dispatch drops nothing *)
  Lemma dispatch_all (t : inf L) (kws : dict pyval) : wf_dict kws -> dispatch_kwargs (callee_of t) kws = kws.
  Proof.
    intros Hwf. unfold dispatch_kwargs, callee_of.
    destruct t as [oid sg m|oid q ix l0 rs dbg|oid p f o|oid q2 q1 o|oid p q o tf nr]; cbn [c_self c_forward c_model];
      rewrite kwargs_for_all by reflexivity; try reflexivity.
    assert (Hn : forall f, dmerge (kwargs_for f kws kws) kws = kws).
    { intros f. rewrite kwargs_for_none by (intros k0 Hk0; exact Hk0). apply dmerge_nil, Hwf. }
    rewrite !Hn. reflexivity.
  Qed.

  Lemma sub_kwargs_eq (kws : dict pyval) b self_ix :
    bind_call kws = Ok b ->
    inf_kwargs b (resolve_ix self_ix (b_ix b)) ++ b_shared b = sub_kwargs self_ix kws.
  Proof.
    unfold bind_call. destruct (clash ["self"; "c"] kws); [discriminate|]. intros [= <-].
    cbn. unfold sub_kwargs. reflexivity.
  Qed.
  Lemma wf_sub_kwargs self_ix (kws : dict pyval) : wf_dict kws -> wf_dict (sub_kwargs self_ix kws).
  Proof.
    intros Hwf. unfold sub_kwargs.
    set (P := fun kv : string * pyval => negb (mem (fst kv) ["sample_dims"; "batch_dim"; "_debug"; "reparameterized"; "ix"])).
    assert (Hf : wf_dict (filter P kws)) by (apply wf_filter, Hwf).
    assert (Hd : forall k, In k ["sample_dims"; "batch_dim"; "_debug"; "reparameterized"; "ix"] -> ~ In k (dkeys (filter P kws))).
    { intros k Hk Hin. unfold dkeys in Hin. apply in_map_iff in Hin. destruct Hin as ([k' v] & E & Hin).
      cbn in E. subst k'. apply filter_In in Hin. destruct Hin as [_ Hp]. unfold P in Hp. cbn [fst] in Hp.
      apply negb_true_iff, mem_not_In in Hp. contradiction. }
    unfold wf_dict. cbn [app dkeys map fst]. fold (dkeys (filter P kws)).
    repeat (apply NoDup_cons; [cbn [In]; intros Hin;
      repeat match type of Hin with _ \/ _ => destruct Hin as [Hin|Hin]; [discriminate|] end;
      revert Hin; apply Hd; cbn; tauto|]).
    exact Hf.
  Qed.

  Lemma ret_mdispatch {A} (t : inf L) (kws : dict pyval) (k : dict pyval -> M L A) s a s' :
    wf_dict kws -> (returns (mdispatch t kws k) s a s' <-> clash ["fn"] kws = false /\ returns (k kws) s a s').
  Proof.
    intros Hwf. unfold mdispatch. destruct (clash ["fn"] kws).
    - rewrite ret_raise. split; [tauto|intros [H _]; discriminate].
    - rewrite dispatch_all by exact Hwf. tauto.
  Qed.
End Kwargs.
