(** Lemmas about Base.v, Lib.v and Spec.v. *)
From Verif Require Export Spec.

Lemma mem_In k l : mem k l = true <-> In k l.
Proof.
  unfold mem. rewrite existsb_exists. split.
  - intros (x & Hx & He). apply String.eqb_eq in He. subst. exact Hx.
  - intros H. exists k. split; [exact H|apply String.eqb_refl].
Qed.
Lemma mem_not_In k l : mem k l = false <-> ~ In k l.
Proof. rewrite <- mem_In. destruct (mem k l); split; congruence. Qed.
Lemma mem_app k a b : mem k (a ++ b) = mem k a || mem k b.
Proof. unfold mem. apply existsb_app. Qed.
Lemma mem_cons k a l : mem k (a :: l) = String.eqb k a || mem k l.
Proof. reflexivity. Qed.

Lemma In_sdiff k a b : In k (sdiff a b) <-> In k a /\ ~ In k b.
Proof.
  unfold sdiff. rewrite filter_In, negb_true_iff, mem_not_In. reflexivity.
Qed.
Lemma In_sinter k a b : In k (sinter a b) <-> In k a /\ In k b.
Proof. unfold sinter. rewrite filter_In, mem_In. reflexivity. Qed.
Lemma In_sunion k a b : In k (sunion a b) <-> In k a \/ In k b.
Proof.
  unfold sunion. rewrite in_app_iff, In_sdiff. destruct (in_dec string_dec k a); tauto.
Qed.
Lemma NoDup_sdiff a b : NoDup a -> NoDup (sdiff a b).
Proof. apply NoDup_filter. Qed.
Lemma sinter_nil a b : sinter a b = [] <-> forall k, In k a -> ~ In k b.
Proof.
  split.
  - intros H k Ha Hb. assert (Hin : In k (sinter a b)) by (apply In_sinter; auto).
    rewrite H in Hin. inversion Hin.
  - intros H. destruct (sinter a b) as [|k l] eqn:E; [reflexivity|].
    assert (Hin : In k (sinter a b)) by (rewrite E; left; reflexivity).
    apply In_sinter in Hin. destruct Hin as [Ha Hb]. destruct (H _ Ha Hb).
Qed.

Section DictFacts.
  Context {V : Type}.
  Implicit Types d : dict V.

  Lemma dget_None k d : dget k d = None <-> ~ In k (dkeys d).
  Proof.
    induction d as [|[k' v] d IH]; cbn; [tauto|].
    destruct (String.eqb_spec k k') as [->|Hne].
    - split; [discriminate|]. intros H. exfalso. apply H. left; reflexivity.
    - rewrite IH. split; [intros H [E|E]; [congruence|tauto]|tauto].
  Qed.
  Lemma dget_In k d v : dget k d = Some v -> In (k, v) d.
  Proof.
    induction d as [|[k' v'] d IH]; cbn; [discriminate|].
    destruct (String.eqb_spec k k') as [->|Hne]; [intros [= ->]; left; reflexivity|].
    intros H. right. apply IH, H.
  Qed.
  Lemma dget_In_keys k d v : dget k d = Some v -> In k (dkeys d).
  Proof. intros H. apply dget_In in H. apply (in_map fst) in H. exact H. Qed.
  Lemma In_dkeys k d : In k (dkeys d) <-> exists v, dget k d = Some v.
  Proof.
    split.
    - intros H. destruct (dget k d) eqn:E; [eexists; reflexivity|].
      apply dget_None in E. contradiction.
    - intros [v H]. eapply dget_In_keys; eauto.
  Qed.
  Lemma dmem_In k d : dmem k d = true <-> In k (dkeys d).
  Proof.
    unfold dmem. rewrite In_dkeys. destruct (dget k d); split; try congruence.
    - intros _. eexists; reflexivity.
    - intros [v H]. congruence.
  Qed.
  Lemma dmem_not_In k d : dmem k d = false <-> ~ In k (dkeys d).
  Proof. rewrite <- dmem_In. destruct (dmem k d); split; congruence. Qed.
  Lemma dmem_mem k d : dmem k d = mem k (dkeys d).
  Proof.
    destruct (mem k (dkeys d)) eqn:E.
    - apply dmem_In, mem_In, E.
    - apply dmem_not_In, mem_not_In, E.
  Qed.
  Lemma In_dget k v d : wf_dict d -> In (k, v) d -> dget k d = Some v.
  Proof.
    unfold wf_dict. induction d as [|[k' v'] d IH]; cbn; [tauto|].
    intros Hn Hin. inversion Hn as [|? ? Hni Hnd]; subst.
    destruct Hin as [E|Hin].
    - injection E as -> ->. rewrite String.eqb_refl. reflexivity.
    - destruct (String.eqb_spec k k') as [->|Hne]; [|auto].
      exfalso. apply Hni. apply (in_map fst) in Hin. exact Hin.
  Qed.
  Lemma dget_dset k k' v d : dget k (dset k' v d) = if String.eqb k k' then Some v else dget k d.
  Proof.
    induction d as [|[k0 v0] d IH]; cbn.
    - destruct (String.eqb k k'); reflexivity.
    - destruct (String.eqb_spec k' k0) as [->|Hne]; cbn.
      + destruct (String.eqb_spec k k0); reflexivity.
      + destruct (String.eqb_spec k k0) as [->|Hne'].
        * destruct (String.eqb_spec k0 k'); congruence.
        * exact IH.
  Qed.
  Lemma dkeys_dset_old k v d : In k (dkeys d) -> dkeys (dset k v d) = dkeys d.
  Proof.
    induction d as [|[k' v'] d IH]; cbn; [tauto|].
    destruct (String.eqb_spec k k') as [->|Hne]; cbn; [reflexivity|].
    intros [E|H]; [congruence|]. f_equal. apply IH, H.
  Qed.
  Lemma dset_new k v d : ~ In k (dkeys d) -> dset k v d = d ++ [(k, v)].
  Proof.
    induction d as [|[k' v'] d IH]; cbn; [reflexivity|].
    intros H. destruct (String.eqb_spec k k') as [->|Hne]; [exfalso; tauto|].
    f_equal. apply IH. tauto.
  Qed.
  Lemma In_dkeys_dset x k v d : In x (dkeys (dset k v d)) <-> x = k \/ In x (dkeys d).
  Proof.
    rewrite !In_dkeys. setoid_rewrite dget_dset.
    destruct (String.eqb_spec x k) as [->|Hne].
    - split; [tauto|]. intros _. eexists; reflexivity.
    - split; [tauto|]. intros [E|H]; [congruence|exact H].
  Qed.
  Lemma dset_dset k v w d : dset k v (dset k w d) = dset k v d.
  Proof.
    induction d as [|[k' v'] d IH]; cbn.
    - rewrite String.eqb_refl. reflexivity.
    - destruct (String.eqb k k') eqn:E; cbn; rewrite E; [reflexivity|]. f_equal. exact IH.
  Qed.
  Lemma wf_dset k v d : wf_dict d -> wf_dict (dset k v d).
  Proof.
    unfold wf_dict. intros H. destruct (in_dec string_dec k (dkeys d)) as [Hin|Hni].
    - rewrite dkeys_dset_old; assumption.
    - rewrite dset_new by assumption. unfold dkeys. rewrite map_app. cbn.
      apply NoDup_rev in H. apply NoDup_rev in H. rewrite rev_involutive in H.
      apply (Permutation_NoDup (l := k :: dkeys d)).
      + unfold dkeys. apply Permutation_cons_append.
      + constructor; assumption.
  Qed.
  Lemma wf_nil : wf_dict (@nil (string * V)).
  Proof. constructor. Qed.
  Lemma dkeys_app d e : dkeys (d ++ e) = dkeys d ++ dkeys e.
  Proof. apply map_app. Qed.
  Lemma dget_app k d e : dget k (d ++ e) = match dget k d with Some v => Some v | None => dget k e end.
  Proof.
    induction d as [|[k' v'] d IH]; cbn; [reflexivity|].
    destruct (String.eqb k k'); [reflexivity|exact IH].
  Qed.
  Lemma dget_filter k (P : string -> bool) d :
    dget k (filter (fun kv => P (fst kv)) d) = if P k then dget k d else None.
  Proof.
    induction d as [|[k' v'] d IH]; cbn; [destruct (P k); reflexivity|].
    destruct (P k') eqn:EP; cbn.
    - destruct (String.eqb_spec k k') as [->|Hne]; [rewrite EP; reflexivity|exact IH].
    - destruct (String.eqb_spec k k') as [->|Hne]; [|exact IH]. rewrite IH, EP. reflexivity.
  Qed.
  Lemma wf_filter (P : string * V -> bool) d : wf_dict d -> wf_dict (filter P d).
  Proof.
    unfold wf_dict. induction d as [|[k v] d IH]; cbn; [intros; constructor|].
    intros H. inversion H as [|? ? Hni Hnd]; subst.
    destruct (P (k, v)); cbn; [constructor|]; auto.
    intros Hin. apply Hni. unfold dkeys in Hin. apply in_map_iff in Hin.
    destruct Hin as ((k', v') & E & Hin). cbn in E. subst k'.
    apply filter_In in Hin. destruct Hin as [Hin _].
    apply (in_map fst) in Hin. exact Hin.
  Qed.
  Lemma dget_dmerge k d e :
    wf_dict e -> dget k (dmerge d e) = match dget k e with Some v => Some v | None => dget k d end.
  Proof.
    unfold dmerge. revert d. induction e as [|[k' v'] e IH]; cbn; intros d Hwf; [reflexivity|].
    inversion Hwf as [|? ? Hni Hnd]; subst.
    rewrite IH by exact Hnd. rewrite dget_dset.
    destruct (String.eqb_spec k k') as [->|Hne]; [|reflexivity].
    apply dget_None in Hni. rewrite Hni. reflexivity.
  Qed.
  Lemma In_dkeys_dmerge k d e : In k (dkeys (dmerge d e)) <-> In k (dkeys d) \/ In k (dkeys e).
  Proof.
    revert d. induction e as [|[k' v'] e IH]; intros d; [cbn; tauto|].
    change (dmerge d ((k', v') :: e)) with (dmerge (dset k' v' d) e).
    rewrite IH, In_dkeys_dset. cbn. intuition.
  Qed.
  Lemma wf_dmerge d e : wf_dict d -> wf_dict (dmerge d e).
  Proof.
    unfold dmerge. revert d. induction e as [|[k' v'] e IH]; cbn; intros d Hwf; [exact Hwf|].
    apply IH, wf_dset, Hwf.
  Qed.
  Lemma dget_filter_kv k (P : string * V -> bool) d : wf_dict d ->
    dget k (filter P d) = match dget k d with Some v => if P (k, v) then Some v else None | None => None end.
  Proof.
    unfold wf_dict. induction d as [|[k' v'] d IH]; cbn; [reflexivity|].
    intros H. inversion H as [|? ? Hni Hnd]; subst.
    destruct (String.eqb_spec k k') as [->|Hne].
    - destruct (P (k', v')) eqn:E; cbn; [rewrite String.eqb_refl; reflexivity|].
      rewrite IH by assumption. apply dget_None in Hni. rewrite Hni. reflexivity.
    - destruct (P (k', v')) eqn:E; cbn; [|auto].
      destruct (String.eqb_spec k k'); [congruence|]. auto.
  Qed.
  Lemma dict_ext d e : wf_dict d -> dkeys d = dkeys e -> (forall k, dget k d = dget k e) -> d = e.
  Proof.
    unfold wf_dict. revert e. induction d as [|[k v] d IH]; intros [|[k' v'] e] Hwf Hk Hg; try discriminate; [reflexivity|].
    cbn in Hk. injection Hk as Ek Hk. cbn in Ek. subst k'.
    inversion Hwf as [|? ? Hni Hnd]; subst.
    pose proof (Hg k) as Hgk. cbn in Hgk. rewrite String.eqb_refl in Hgk. injection Hgk as <-.
    f_equal. apply IH; [assumption|exact Hk|].
    intros x. specialize (Hg x). cbn in Hg. revert Hg.
    destruct (String.eqb_spec x k) as [Exk|Hne]; [intros _; subst x|intros Hg; exact Hg].
    assert (H1 : dget k d = None) by (apply dget_None; exact Hni).
    assert (H2 : dget k e = None) by (apply dget_None; unfold dkeys in *; rewrite <- Hk; exact Hni).
    congruence.
  Qed.
End DictFacts.
