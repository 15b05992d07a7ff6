(** Proofs about TraceUtils.v and log_joint. *)
From Verif Require Export BaseFacts.

Section TraceFacts.
  Context (L : lib).
  Notation trace := (trace L).
  Notation rv := (rv L).
  Implicit Types (tr acc : trace) (trs : list trace).

  Definition keep (excl : string -> bool) : string * rv -> bool := fun kv => negb (excl (fst kv)).

  Lemma copy_items_app excl mode a b acc :
    copy_items excl mode (a ++ b) acc = rbind (copy_items excl mode a acc) (copy_items excl mode b).
  Proof.
    revert acc. induction a as [|[k r] a IH]; intros acc; cbn; [reflexivity|].
    destruct (copy_item excl mode k r acc) as [acc'|e]; cbn; [apply IH|reflexivity].
  Qed.
  Lemma copy_all_items excl mode trs acc :
    copy_all excl mode trs acc = copy_items excl mode (all_items trs) acc.
  Proof.
    unfold all_items. revert acc. induction trs as [|tr trs IH]; intros acc; cbn; [reflexivity|].
    rewrite copy_items_app. destruct (copy_items excl mode tr acc) as [a|e]; cbn; [apply IH|reflexivity].
  Qed.

  Lemma first_keys_mem seen seen' ks :
    (forall k, mem k seen = mem k seen') -> first_keys seen ks = first_keys seen' ks.
  Proof.
    revert seen seen'. induction ks as [|k ks IH]; intros seen seen' H; cbn [first_keys]; [reflexivity|].
    rewrite (H k). destruct (mem k seen').
    - apply IH, H.
    - f_equal. apply IH. intros x. rewrite !mem_cons, H. reflexivity.
  Qed.

  Lemma filter_keep_cons_excl excl k r (items : trace) :
    excl k = true -> filter (keep excl) ((k, r) :: items) = filter (keep excl) items.
  Proof. intros H. cbn. unfold keep. cbn. rewrite H. reflexivity. Qed.
  Lemma filter_keep_cons_ok excl k r (items : trace) :
    excl k = false -> filter (keep excl) ((k, r) :: items) = (k, r) :: filter (keep excl) items.
  Proof. intros H. cbn. unfold keep. cbn. rewrite H. reflexivity. Qed.

  Lemma mem_snoc x k l : mem x (l ++ [k]) = mem x (k :: l).
  Proof. rewrite mem_app, mem_cons. cbn. rewrite orb_false_r. apply orb_comm. Qed.

  Lemma copy_items_first excl items acc :
    exists acc', copy_items excl FirstWriteWins items acc = Ok acc' /\
      dkeys acc' = dkeys acc ++ first_keys (dkeys acc) (dkeys (filter (keep excl) items)) /\
      forall k, dget k acc' = match dget k acc with
                              | Some v => Some v
                              | None => dget k (filter (keep excl) items)
                              end.
  Proof.
    revert acc. induction items as [|[k r] items IH]; intros acc.
    - exists acc. cbn. rewrite app_nil_r. split; [reflexivity|]. split; [reflexivity|].
      intros k. destruct (dget k acc); reflexivity.
    - cbn [copy_items]. unfold copy_item. destruct (excl k) eqn:Ex.
      + rewrite filter_keep_cons_excl by exact Ex. cbn [rbind]. apply IH.
      + rewrite filter_keep_cons_ok by exact Ex. destruct (dmem k acc) eqn:Em.
        * destruct (IH acc) as (acc' & E & Hk & Hg). exists acc'. cbn [rbind]. split; [exact E|].
          split.
          { rewrite Hk. cbn [dkeys map first_keys]. rewrite dmem_mem in Em. cbn [fst]. rewrite Em. reflexivity. }
          { intros x. rewrite Hg. destruct (dget x acc) eqn:Ea; [reflexivity|]. cbn [dget].
            destruct (String.eqb_spec x k) as [->|Hne]; [|reflexivity].
            unfold dmem in Em. rewrite Ea in Em. discriminate. }
        * pose proof Em as Em'. apply dmem_not_In in Em'.
          destruct (IH (dset k r acc)) as (acc' & E & Hk & Hg). exists acc'. cbn [rbind]. split; [exact E|].
          rewrite dset_new in Hk by exact Em'. split.
          { rewrite Hk, dkeys_app, <- app_assoc. cbn [dkeys map first_keys fst app].
            rewrite dmem_mem in Em. cbn [fst]. fold (dkeys acc). rewrite Em.
            f_equal. f_equal. apply first_keys_mem. intros x. apply mem_snoc. }
          { intros x. rewrite Hg, dget_dset. cbn [dget].
            destruct (String.eqb_spec x k) as [->|Hne]; [|reflexivity].
            unfold dmem in Em. destruct (dget k acc); [discriminate|reflexivity]. }
  Qed.

  Lemma rev_filter {A} (P : A -> bool) l : rev (filter P l) = filter P (rev l).
  Proof.
    induction l as [|a l IH]; cbn; [reflexivity|].
    rewrite filter_app. cbn. destruct (P a); cbn; rewrite IH; [reflexivity|]. rewrite app_nil_r. reflexivity.
  Qed.

  Lemma copy_items_last excl items acc :
    exists acc', copy_items excl LastWriteWins items acc = Ok acc' /\
      dkeys acc' = dkeys acc ++ first_keys (dkeys acc) (dkeys (filter (keep excl) items)) /\
      forall k, dget k acc' = match dget k (rev (filter (keep excl) items)) with
                              | Some v => Some v
                              | None => dget k acc
                              end.
  Proof.
    revert acc. induction items as [|[k r] items IH]; intros acc.
    - exists acc. cbn. rewrite app_nil_r. split; [reflexivity|]. split; reflexivity.
    - cbn [copy_items]. unfold copy_item. destruct (excl k) eqn:Ex.
      + rewrite filter_keep_cons_excl by exact Ex. cbn [rbind]. apply IH.
      + rewrite filter_keep_cons_ok by exact Ex.
        assert (Hx : forall acc' : trace,
          (forall x, dget x acc' = match dget x (rev (filter (keep excl) items)) with
                                   | Some v => Some v | None => dget x (dset k r acc) end) ->
          forall x, dget x acc' = match dget x (rev ((k, r) :: filter (keep excl) items)) with
                                   | Some v => Some v | None => dget x acc end).
        { intros acc' Hg x. rewrite Hg. cbn [rev]. rewrite dget_app, dget_dset. cbn [dget].
          destruct (dget x (rev (filter (keep excl) items))); [reflexivity|].
          destruct (String.eqb x k); reflexivity. }
        destruct (dmem k acc) eqn:Em.
        * rewrite dset_dset.
          destruct (IH (dset k r acc)) as (acc' & E & Hk & Hg). exists acc'. cbn [rbind]. split; [exact E|].
          split; [|apply Hx, Hg].
          rewrite dkeys_dset_old in Hk by (apply dmem_In, Em).
          rewrite Hk. cbn [dkeys map first_keys]. rewrite dmem_mem in Em. cbn [fst]. fold (dkeys acc). rewrite Em. reflexivity.
        * pose proof Em as Em'. apply dmem_not_In in Em'.
          destruct (IH (dset k r acc)) as (acc' & E & Hk & Hg). exists acc'. cbn [rbind]. split; [exact E|].
          split; [|apply Hx, Hg].
          rewrite dset_new in Hk by exact Em'.
          rewrite Hk, dkeys_app, <- app_assoc. cbn [dkeys map first_keys fst app].
          rewrite dmem_mem in Em. cbn [fst]. fold (dkeys acc). rewrite Em.
          f_equal. f_equal. apply first_keys_mem. intros x. apply mem_snoc.
  Qed.

  Lemma copy_items_no_overlap_ok excl items acc :
    NoDup (dkeys acc ++ dkeys (filter (keep excl) items)) ->
    copy_items excl NoOverlaps items acc = Ok (acc ++ filter (keep excl) items).
  Proof.
    revert acc. induction items as [|[k r] items IH]; intros acc H.
    - cbn. rewrite app_nil_r. reflexivity.
    - cbn [copy_items]. unfold copy_item. destruct (excl k) eqn:Ex.
      + rewrite filter_keep_cons_excl in * by exact Ex. cbn [rbind]. apply IH, H.
      + rewrite filter_keep_cons_ok in * by exact Ex.
        cbn [dkeys map fst] in H. fold (dkeys acc) in H.
        assert (Hni : ~ In k (dkeys acc)).
        { apply NoDup_remove_2 in H. intros Hin. apply H. apply in_or_app. left; exact Hin. }
        pose proof Hni as Em. apply dmem_not_In in Em. rewrite Em. cbn [rbind].
        rewrite dset_new by exact Hni. rewrite IH.
        * rewrite <- app_assoc. reflexivity.
        * rewrite dkeys_app. rewrite <- app_assoc. exact H.
  Qed.
  Lemma copy_items_no_overlap_err excl items acc :
    NoDup (dkeys acc) ->
    ~ NoDup (dkeys acc ++ dkeys (filter (keep excl) items)) ->
    copy_items excl NoOverlaps items acc = Err RuntimeError.
  Proof.
    revert acc. induction items as [|[k r] items IH]; intros acc Ha H.
    - exfalso. apply H. cbn. rewrite app_nil_r. exact Ha.
    - cbn [copy_items]. unfold copy_item. destruct (excl k) eqn:Ex.
      + rewrite filter_keep_cons_excl in * by exact Ex. cbn [rbind]. apply IH; assumption.
      + rewrite filter_keep_cons_ok in * by exact Ex.
        cbn [dkeys map fst] in H. fold (dkeys acc) in H.
        destruct (dmem k acc) eqn:Em; [reflexivity|]. cbn [rbind].
        apply dmem_not_In in Em. apply IH.
        * apply wf_dset, Ha.
        * rewrite dset_new by exact Em. rewrite dkeys_app, <- app_assoc. exact H.
  Qed.

  (** *** copytraces of one trace *)
  Lemma filter_keep_none (tr : trace) : filter (keep no_excl) tr = tr.
  Proof. induction tr as [|kv tr IH]; cbn; [reflexivity|]. f_equal; exact IH. Qed.
  Lemma NoDup_first_keys_id seen ks :
    NoDup ks -> (forall k, In k ks -> mem k seen = false) -> first_keys seen ks = ks.
  Proof.
    revert seen. induction ks as [|k ks IH]; intros seen Hn Hd; cbn [first_keys]; [reflexivity|].
    inversion Hn as [|? ? Hni Hnd]; subst.
    rewrite (Hd k) by (left; reflexivity). f_equal. apply IH; [exact Hnd|].
    intros x Hx. rewrite mem_cons. destruct (String.eqb_spec x k) as [->|Hne]; [contradiction|].
    cbn. apply Hd. right; exact Hx.
  Qed.
  Lemma dget_rev k (d : trace) : wf_dict d -> dget k (rev d) = dget k d.
  Proof.
    intros Hwf. assert (Hwf' : wf_dict (rev d)).
    { unfold wf_dict, dkeys. rewrite map_rev. apply NoDup_rev, Hwf. }
    destruct (dget k d) as [v|] eqn:E.
    - apply In_dget; [exact Hwf'|]. apply in_rev. rewrite rev_involutive. apply dget_In, E.
    - apply dget_None. unfold dkeys. rewrite map_rev. rewrite <- in_rev. apply dget_None, E.
  Qed.
  Lemma copytraces_one mode tr : wf_dict tr -> copytraces no_excl mode [tr] = Ok tr.
  Proof.
    intros Hwf. unfold copytraces. rewrite copy_all_items. cbn. unfold all_items. cbn. rewrite app_nil_r.
    destruct mode.
    - destruct (copy_items_last no_excl tr []) as (acc' & E & Hk & Hg).
      rewrite E. f_equal. rewrite filter_keep_none in *. cbn in Hk.
      rewrite NoDup_first_keys_id in Hk; [|exact Hwf|reflexivity].
      symmetry. apply dict_ext; [exact Hwf|symmetry; exact Hk|].
      intros k. rewrite Hg, dget_rev by exact Hwf. cbn. destruct (dget k tr); reflexivity.
    - destruct (copy_items_first no_excl tr []) as (acc' & E & Hk & Hg).
      rewrite E. f_equal. rewrite filter_keep_none in *. cbn in Hk.
      rewrite NoDup_first_keys_id in Hk; [|exact Hwf|reflexivity].
      symmetry. apply dict_ext; [exact Hwf|symmetry; exact Hk|].
      intros k. rewrite Hg. reflexivity.
    - rewrite copy_items_no_overlap_ok; rewrite filter_keep_none; [reflexivity|exact Hwf].
  Qed.

  Lemma wf_app (a b : trace) : wf_dict a -> wf_dict b -> disjoint_keys a b -> wf_dict (a ++ b).
  Proof.
    intros Ha Hb Hd. unfold wf_dict. rewrite dkeys_app. unfold wf_dict, disjoint_keys in *.
    revert Ha Hd. generalize (dkeys a) as ka. generalize (dkeys b), Hb.
    intros kb Hkb ka. induction ka as [|k ka IH]; cbn; intros Ha Hd; [exact Hkb|].
    inversion Ha as [|? ? Hni Hnd]; subst. constructor.
    - rewrite in_app_iff. intros [H|H]; [contradiction|]. apply (Hd k); [left; reflexivity|exact H].
    - apply IH; [exact Hnd|]. intros x Hx. apply Hd. right; exact Hx.
  Qed.
  Lemma copytraces_two_disjoint mode (a b : trace) :
    wf_dict a -> wf_dict b -> disjoint_keys a b -> copytraces no_excl mode [a; b] = Ok (a ++ b).
  Proof.
    intros Ha Hb Hd. unfold copytraces. rewrite copy_all_items. unfold all_items. cbn. rewrite app_nil_r.
    assert (Hwf : wf_dict (a ++ b)) by (apply wf_app; assumption).
    pose proof (copytraces_one mode (a ++ b) Hwf) as H. unfold copytraces in H.
    rewrite copy_all_items in H. unfold all_items in H. cbn in H. rewrite app_nil_r in H. exact H.
  Qed.
  (** whatever copytraces returns is a dict *)
  Lemma copy_items_wf excl mode items acc acc' :
    wf_dict acc -> copy_items excl mode items acc = Ok acc' -> wf_dict acc'.
  Proof.
    revert acc. induction items as [|[k r] items IH]; cbn; intros acc Hwf H.
    - injection H as <-. exact Hwf.
    - destruct (copy_item excl mode k r acc) as [acc1|e] eqn:E; cbn in H; [|discriminate].
      apply (IH acc1); [|exact H]. unfold copy_item in E.
      destruct (excl k); [injection E as <-; exact Hwf|].
      destruct (dmem k acc).
      + destruct mode; try discriminate; injection E as <-; [|exact Hwf]. apply wf_dset, wf_dset, Hwf.
      + injection E as <-. apply wf_dset, Hwf.
  Qed.
  Lemma copytraces_wf excl mode trs tr : copytraces excl mode trs = Ok tr -> wf_dict tr.
  Proof.
    unfold copytraces. rewrite copy_all_items. apply copy_items_wf, wf_nil.
  Qed.
  Lemma copytraces_filter excl tr : wf_dict tr ->
    copytraces excl NoOverlaps [tr] = Ok (filter (keep excl) tr).
  Proof.
    intros Hwf. unfold copytraces. rewrite copy_all_items. unfold all_items. cbn. rewrite app_nil_r.
    rewrite copy_items_no_overlap_ok; [reflexivity|]. cbn. apply wf_filter, Hwf.
  Qed.

  (** *** rerun_with_detached_values *)
  Lemma rerun_items_app tr acc :
    wf_dict (acc ++ tr) ->
    rerun_items tr acc = rmap (fun d => acc ++ d)
      (fold_right (fun kr rest => rbind (rerun_rv (snd kr)) (fun r' => rmap (cons (fst kr, r')) rest)) (Ok []) tr).
  Proof.
    revert acc. induction tr as [|[k r] tr IH]; intros acc Hwf; cbn.
    - rewrite app_nil_r. reflexivity.
    - destruct (rerun_rv r) as [r'|e]; cbn; [|reflexivity].
      unfold wf_dict in Hwf. rewrite dkeys_app in Hwf. cbn in Hwf.
      assert (Hni : ~ In k (dkeys acc)).
      { apply NoDup_remove_2 in Hwf. intros Hin. apply Hwf, in_or_app. left; exact Hin. }
      rewrite dset_new by exact Hni. rewrite IH.
      + destruct (fold_right _ _ tr) as [d|e]; cbn; [|reflexivity]. rewrite <- app_assoc. reflexivity.
      + unfold wf_dict. rewrite !dkeys_app, <- app_assoc. exact Hwf.
  Qed.

  (** *** log_joint *)
  Lemma log_joint_from_sum (HL : lib_laws L) sd bd rep names tr (acc x : T L) :
    log_joint_from sd bd rep names tr acc = Ok x ->
    x = tadd L acc (tsum (map (fun n => match dget n tr with
                                        | Some r => bsum L sd bd (rv_logp r) | None => tzero L end) names)).
  Proof.
    revert acc. induction names as [|n names IH]; cbn; intros acc H.
    - injection H as <-. rewrite tadd_comm, tadd_zero by exact HL. reflexivity.
    - destruct (dget n tr) as [r|].
      + destruct (lj_ok L rep (rv_rep r) (rv_prov r)); [|discriminate].
        rewrite (IH _ H). rewrite <- (tadd_assoc L HL). reflexivity.
      + rewrite (IH _ H). rewrite (tadd_zero L HL). reflexivity.
  Qed.
  Lemma tsum_cons (x : T L) l : tsum (x :: l) = tadd L x (tsum l).
  Proof. reflexivity. Qed.
  Lemma tsum_perm (HL : lib_laws L) (l l' : list (T L)) : Permutation l l' -> tsum l = tsum l'.
  Proof.
    induction 1 as [|x l l' Hp IH|x y l|l l' l'' Hp1 IH1 Hp2 IH2].
    - reflexivity.
    - cbn [tsum fold_right]. unfold tsum in IH. rewrite IH. reflexivity.
    - cbn [tsum fold_right]. rewrite !(tadd_assoc L HL). rewrite (tadd_comm L HL y x). reflexivity.
    - congruence.
  Qed.
  Lemma tsum_app (HL : lib_laws L) (l l' : list (T L)) : tsum (l ++ l') = tadd L (tsum l) (tsum l').
  Proof.
    induction l as [|a l IH]; [symmetry; apply (tadd_zero L HL)|].
    cbn [app]. rewrite !tsum_cons, IH. apply (tadd_assoc L HL).
  Qed.

  (** Summing over a duplicate-free list of names of the trace = summing over the trace. *)
  Lemma tsum_names (HL : lib_laws L) sd bd names tr :
    wf_dict tr -> NoDup names ->
    tsum (map (fun n => match dget n tr with
                        | Some r => bsum L sd bd (rv_logp r) | None => tzero L end) names)
    = logp_sum sd bd (fun a _ => mem a names) tr.
  Proof.
    revert names. unfold logp_sum. induction tr as [|[k r] tr IH]; intros names Hwf Hnd.
    - induction names as [|n names IHn]; [reflexivity|].
      cbn [map dget]. rewrite tsum_cons, (tadd_zero L HL). apply IHn. inversion Hnd; assumption.
    - inversion Hwf as [|? ? Hni Hnd']; subst. cbn [filter].
      cbn [fst]. destruct (mem k names) eqn:Em.
      + apply mem_In in Em. apply in_split in Em. destruct Em as (l1 & l2 & ->).
        rewrite (tsum_perm HL _ (map (fun n => match dget n ((k, r) :: tr) with
                        | Some r => bsum L sd bd (rv_logp r) | None => tzero L end) (k :: l1 ++ l2))).
        2:{ apply Permutation_map. symmetry. apply Permutation_middle. }
        cbn [map]. rewrite !tsum_cons. f_equal; [cbn; rewrite String.eqb_refl; reflexivity|].
        assert (Hk : ~ In k (l1 ++ l2)).
        { apply NoDup_remove_2 in Hnd. exact Hnd. }
        transitivity (tsum (map (fun n => match dget n tr with
                        | Some r => bsum L sd bd (rv_logp r) | None => tzero L end) (l1 ++ l2))).
        { f_equal. apply map_ext_in. intros n Hn. cbn [dget].
          destruct (String.eqb_spec n k) as [->|Hne]; [contradiction|reflexivity]. }
        rewrite IH; [|exact Hnd'|apply NoDup_remove_1 in Hnd; exact Hnd].
        f_equal. f_equal. apply filter_ext_in. intros [k' r'] Hin. cbn [fst].
        rewrite !mem_app, mem_cons. destruct (String.eqb_spec k' k) as [->|Hne]; [|reflexivity].
        exfalso. apply Hni. apply (in_map fst) in Hin. exact Hin.
      + apply mem_not_In in Em. rewrite <- IH by assumption.
        f_equal. apply map_ext_in. intros n Hn. cbn [dget].
        destruct (String.eqb_spec n k) as [->|Hne]; [contradiction|reflexivity].
  Qed.

  Lemma logp_sum_ext sd bd P Q tr :
    (forall a r, In (a, r) tr -> P a r = Q a r) -> logp_sum sd bd P tr = logp_sum sd bd Q tr.
  Proof.
    intros H. unfold logp_sum. f_equal. f_equal. apply filter_ext_in. intros [a r] Hin. apply H, Hin.
  Qed.

  Lemma log_joint_sum (HL : lib_laws L) sd bd rep nodes tr x :
    wf_dict tr -> NoDup nodes -> log_joint sd bd rep nodes tr = Ok x ->
    x = logp_sum sd bd (fun a _ => mem a nodes) tr.
  Proof.
    intros Hwf Hnd H. unfold log_joint in H. apply (log_joint_from_sum HL) in H.
    rewrite (tadd_zero L HL) in H. rewrite H.
    pose proof (order_perm L HL nodes) as Hp.
    rewrite tsum_names; [|exact HL|exact Hwf|].
    - apply logp_sum_ext. intros a r _.
      destruct (mem a nodes) eqn:E.
      + apply mem_In. apply mem_In in E. eapply Permutation_in; [symmetry; exact Hp|exact E].
      + apply mem_not_In. apply mem_not_In in E. intros Hin. apply E. eapply Permutation_in; [exact Hp|exact Hin].
    - eapply Permutation_NoDup; [symmetry; exact Hp|exact Hnd].
  Qed.
  (** log_joint fails only with ValueError and only on a rejected node *)
  Lemma log_joint_err sd bd rep nodes tr e (HL : lib_laws L) :
    log_joint sd bd rep nodes tr = Err e ->
    e = ValueError /\ exists n r, In n nodes /\ dget n tr = Some r /\ lj_ok L rep (rv_rep r) (rv_prov r) = false.
  Proof.
    unfold log_joint. pose proof (order_perm L HL nodes) as Hp.
    assert (H : forall names (acc : T L), log_joint_from sd bd rep names tr acc = Err e ->
      e = ValueError /\ exists n r, In n names /\ dget n tr = Some r /\ lj_ok L rep (rv_rep r) (rv_prov r) = false).
    { induction names as [|n names IH]; cbn; intros acc H; [discriminate|].
      destruct (dget n tr) as [r|] eqn:Eg.
      - destruct (lj_ok L rep (rv_rep r) (rv_prov r)) eqn:Ej.
        + destruct (IH _ H) as (He & n' & r' & Hn & Hr). split; [exact He|]. exists n', r'. tauto.
        + injection H as <-. split; [reflexivity|]. exists n, r. tauto.
      - destruct (IH _ H) as (He & n' & r' & Hn & Hr). split; [exact He|]. exists n', r'. tauto. }
    intros He. destruct (H _ _ He) as (E & n & r & Hn & Hr). split; [exact E|]. exists n, r.
    split; [|exact Hr]. eapply Permutation_in; [exact Hp|exact Hn].
  Qed.

  Lemma In_latent_addrs tr a : wf_dict tr -> (In a (latent_addrs tr) <-> latent_in tr a = true).
  Proof.
    intros Hwf. unfold latent_addrs, latent_in. rewrite in_map_iff. split.
    - intros ([k r] & E & Hin). cbn in E. subst k. apply filter_In in Hin. destruct Hin as [Hin Hp].
      rewrite (In_dget a r) by assumption. exact Hp.
    - intros H. destruct (dget a tr) as [r|] eqn:E; [|discriminate].
      exists (a, r). split; [reflexivity|]. apply filter_In. split; [apply dget_In, E|exact H].
  Qed.
  Lemma NoDup_latent_addrs tr : wf_dict tr -> NoDup (latent_addrs tr).
  Proof. intros H. unfold latent_addrs. apply wf_filter, H. Qed.
End TraceFacts.
