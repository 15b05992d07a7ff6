(** Proofs of C14, and path (draw list) versions of the sequencing lemmas. *)
From Verif Require Export Thm_Program.

Section Paths.
  Context {L : lib}.

  Lemma path_fun {A} (t : stree L A) ds a b : path t ds a -> path t ds b -> a = b.
  Proof. induction 1; intros H'; inversion H'; subst; auto. Qed.
  Lemma path_bind_ok {A B} (m : M L A) (f : A -> M L B) s ds1 a s1 ds2 x :
    path (m s) ds1 (Ok a, s1) -> path (f a s1) ds2 x -> path (mbind m f s) (ds1 ++ ds2) x.
  Proof. intros H1 H2. unfold mbind. apply path_tbind. exists ds1, (Ok a, s1), ds2. auto. Qed.
  Lemma path_bind_err {A B} (m : M L A) (f : A -> M L B) s ds e s1 :
    path (m s) ds (Err e, s1) -> path (mbind m f s) ds (Err e, s1).
  Proof.
    intros H. unfold mbind. apply path_tbind. exists ds, (Err e, s1), []. rewrite app_nil_r.
    split; [exact H|]. split; [constructor|reflexivity].
  Qed.
  Lemma path_bind_pure {A B} (m : M L A) (f : A -> M L B) s a s1 ds x :
    m s = Leaf (Ok a, s1) -> path (f a s1) ds x -> path (mbind m f s) ds x.
  Proof. intros E H. apply (path_bind_ok m f s [] a s1); [rewrite E; constructor|exact H]. Qed.
  Lemma path_bind_pure_err {A B} (m : M L A) (f : A -> M L B) s e s1 :
    m s = Leaf (Err e, s1) -> path (mbind m f s) [] (Err e, s1).
  Proof. intros E. apply path_bind_err. rewrite E. constructor. Qed.
  Lemma path_mfinally {A} (m : M L A) f s ds r s1 :
    path (m s) ds (r, s1) -> path (mfinally m f s) ds (r, f s1).
  Proof.
    intros H. unfold mfinally. apply path_tbind. exists ds, (r, s1), []. rewrite app_nil_r.
    split; [exact H|]. split; [constructor|reflexivity].
  Qed.
  Lemma path_with {A} oid (t : option (trace L)) (m : M L A) s ds r s1 :
    (forall tr, t = Some tr -> wf_dict tr) ->
    path (m (set_cond oid t s)) ds (r, s1) -> path (with_substitution oid t m s) ds (r, set_cond oid None s1).
  Proof.
    intros Hwf H. unfold with_substitution.
    apply path_bind_pure with (a := t) (s1 := s).
    { destruct t as [tr|]; [|reflexivity]. rewrite copytraces_one by (apply Hwf; reflexivity). reflexivity. }
    eapply path_bind_pure; [reflexivity|]. apply path_mfinally, H.
  Qed.
  Lemma path_mdispatch {A} (t : inf L) kws (k : dict (pyval (T L)) -> M L A) s ds x :
    wf_dict kws -> clash ["fn"] kws = false -> path (k kws s) ds x -> path (mdispatch t kws k s) ds x.
  Proof. intros Hwf Hc H. unfold mdispatch. rewrite Hc, dispatch_all by exact Hwf. exact H. Qed.
End Paths.

Section Scope.
  Context (L : lib).

  Lemma run_cond t c kws s r s' :
    outcome (run (L := L) t c kws s) (r, s') ->
    forall i, get_cond i s' = get_cond i s \/ (get_cond i s' = None /\ In i (substituted t)).
  Proof.
    apply (run_pres (fun s s' => forall i, get_cond i s' = get_cond i s \/ (get_cond i s' = None /\ In i (substituted t))))
      with (P := fun i => In i (substituted t)); clear.
    - intros s i. left. reflexivity.
    - intros a b d H1 H2 i. destruct (H2 i) as [E2|E2]; [|right; exact E2].
      rewrite E2. exact (H1 i).
    - intros oid sg m c' kws' s r s' H i. left. apply forward_state in H. unfold get_cond. destruct H as [-> _]. reflexivity.
    - intros oid t0 A m Hin Hm s r s' H i. apply outcome_with_gen in H.
      destruct H as [(e & -> & ->)|(t' & s1 & _ & _ & H & ->)]; [left; reflexivity|].
      destruct (Nat.eq_dec i oid) as [->|Hne].
      + right. rewrite get_set_same. auto.
      + rewrite get_set_other by exact Hne. destruct (Hm _ _ _ H i) as [E|E]; [|right; exact E].
        left. rewrite E, get_set_other by exact Hne. reflexivity.
    - intros tr tr2 s r s' H i. left. unfold resample_update in H.
      destruct (hook s (store s) tr tr2); apply outcome_leaf in H; injection H as _ <-; reflexivity.
    - intros i H. exact H.
  Qed.

  Lemma run_scoped t c kws s r s' :
    outcome (run (L := L) t c kws s) (r, s') ->
    (forall i, ~ In i (substituted t) -> get_cond i s' = get_cond i s) /\
    (forall i, get_cond i s = None -> get_cond i s' = None) /\
    hook s' = hook s.
  Proof.
    intros H. pose proof (run_cond _ _ _ _ _ _ H) as Hc. split; [|split].
    - intros i Hi. destruct (Hc i) as [E|[_ E]]; [exact E|contradiction].
    - intros i Hi. destruct (Hc i) as [E|[E _]]; congruence.
    - revert s r s' H Hc. 
      enough (G : forall s r s', outcome (run (L := L) t c kws s) (r, s') -> hook s' = hook s) by (intros; eapply G; eassumption).
      apply (run_pres (fun s s' => hook s' = hook s)) with (P := fun _ => True); try tauto; try congruence.
      + intros oid sg m c' kws' s r s' H. apply forward_state in H. apply H.
      + intros oid t0 A m _ Hm s r s' H. apply outcome_with_gen in H.
        destruct H as [(e & -> & ->)|(t' & s1 & _ & _ & H & ->)]; [reflexivity|]. cbn. apply Hm in H. exact H.
      + intros tr tr2 s r s' H. unfold resample_update in H.
        destruct (hook s (store s) tr tr2); apply outcome_leaf in H; injection H as _ <-; reflexivity.
  Qed.

  (** a call sequence: every call returned or raised *)
  Lemma calls_scoped s s' : session (L := L) s s' ->
    (forall i, get_cond i s = None -> get_cond i s' = None) /\ hook s' = hook s.
  Proof.
    induction 1 as [s|s t c kws r s1 s2 Hr Hs IH]; [tauto|].
    apply run_scoped in Hr. destruct Hr as (_ & Hn & Hh). destruct IH as [IHn IHh].
    split; [intros i Hi; auto|congruence].
  Qed.
End Scope.
