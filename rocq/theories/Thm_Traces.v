(** Proofs of the properties of trace utilities (statements repeated in Prop_Traces.v). *)
From Verif Require Export RunInv Instances.

(** names selected by the arguments of valeq *)
Definition selected {L : lib} (t1 t2 : trace L) (nodes : nodes_arg) (strict : bool) (a : string) : Prop :=
  match nodes with
  | NodesNone => if strict then In a (dkeys t1) \/ In a (dkeys t2) else In a (dkeys t1) /\ In a (dkeys t2)
  | NodesDict names => In a names
  | NodesPairs _ => False
  end.
(** [a] is in both traces, with equal values *)
Definition value_equal {L : lib} (t1 t2 : trace L) (a : string) : Prop :=
  exists r1 r2, dget a t1 = Some r1 /\ dget a t2 = Some r2 /\
                tensor_equal L (rv_value r1) (rv_value r2) = true.

Section ThmTraces.
  Context (L : lib).
  Implicit Types (tr t : trace L) (trs : list (trace L)).

  Lemma dkeys_filter_keep excl tr :
    dkeys (filter (keep L excl) tr) = filter (fun k => negb (excl k)) (dkeys tr).
  Proof.
    unfold dkeys, keep. induction tr as [|[k r] tr IH]; cbn; [reflexivity|].
    destruct (excl k); cbn; rewrite IH; reflexivity.
  Qed.
  Lemma dget_filter_keep excl tr k :
    dget k (filter (keep L excl) tr) = if excl k then None else dget k tr.
  Proof.
    unfold keep. rewrite (dget_filter k (fun x => negb (excl x)) tr). destruct (excl k); reflexivity.
  Qed.

  Lemma copytraces_first excl trs :
    exists tr, copytraces excl FirstWriteWins trs = Ok tr /\
      dkeys tr = first_keys [] (filter (fun k => negb (excl k)) (dkeys (all_items trs))) /\
      forall k, dget k tr = if excl k then None else dget k (all_items trs).
  Proof.
    unfold copytraces. rewrite copy_all_items.
    destruct (copy_items_first L excl (all_items trs) []) as (tr & E & Hk & Hg).
    exists tr. split; [exact E|]. rewrite dkeys_filter_keep in Hk. split; [exact Hk|].
    intros k. rewrite Hg. cbn. apply dget_filter_keep.
  Qed.
  Lemma copytraces_last excl trs :
    exists tr, copytraces excl LastWriteWins trs = Ok tr /\
      dkeys tr = first_keys [] (filter (fun k => negb (excl k)) (dkeys (all_items trs))) /\
      forall k, dget k tr = if excl k then None else dget k (rev (all_items trs)).
  Proof.
    unfold copytraces. rewrite copy_all_items.
    destruct (copy_items_last L excl (all_items trs) []) as (tr & E & Hk & Hg).
    exists tr. split; [exact E|]. rewrite dkeys_filter_keep in Hk. split; [exact Hk|].
    intros k. rewrite Hg. rewrite rev_filter. cbn. rewrite dget_filter_keep.
    destruct (excl k); [reflexivity|]. destruct (dget k (rev (all_items trs))); reflexivity.
  Qed.
  Lemma copytraces_no_overlaps excl trs :
    (NoDup (filter (fun k => negb (excl k)) (dkeys (all_items trs))) ->
       copytraces excl NoOverlaps trs = Ok (filter (fun kr => negb (excl (fst kr))) (all_items trs))) /\
    (~ NoDup (filter (fun k => negb (excl k)) (dkeys (all_items trs))) ->
       copytraces excl NoOverlaps trs = Err RuntimeError).
  Proof.
    unfold copytraces. rewrite copy_all_items. rewrite <- dkeys_filter_keep. split.
    - intros H. apply (copy_items_no_overlap_ok L excl (all_items trs) []). exact H.
    - intros H. apply copy_items_no_overlap_err; [constructor|exact H].
  Qed.
  Lemma In_first_keys k seen ks : In k (first_keys seen ks) <-> In k ks /\ ~ In k seen.
  Proof.
    revert seen. induction ks as [|x ks IH]; intros seen; cbn [first_keys In]; [tauto|].
    destruct (mem x seen) eqn:E.
    - rewrite IH. apply mem_In in E. split; [tauto|].
      intros [[->|H] H2]; [contradiction|tauto].
    - cbn [In]. rewrite IH. cbn [In]. apply mem_not_In in E.
      destruct (string_dec x k) as [->|Hne]; tauto.
  Qed.
  Lemma NoDup_first_keys seen ks : NoDup (first_keys seen ks).
  Proof.
    revert seen. induction ks as [|x ks IH]; intros seen; cbn [first_keys]; [constructor|].
    destruct (mem x seen); [apply IH|]. constructor; [|apply IH].
    rewrite In_first_keys. cbn. tauto.
  Qed.
  (** the addresses of the result, in either overwriting mode *)
  Lemma copytraces_addresses excl mode trs tr :
    copytraces excl mode trs = Ok tr ->
    wf_dict tr /\ forall a, In a (dkeys tr) <-> excl a = false /\ exists t, In t trs /\ In a (dkeys t).
  Proof.
    intros H. split; [eapply copytraces_wf; exact H|]. intros a.
    assert (Hall : In a (filter (fun k => negb (excl k)) (dkeys (all_items trs))) <->
                   excl a = false /\ exists t, In t trs /\ In a (dkeys t)).
    { rewrite filter_In, negb_true_iff. unfold all_items, dkeys. rewrite in_map_iff.
      setoid_rewrite in_concat. setoid_rewrite in_map_iff. firstorder. }
    destruct mode.
    - destruct (copytraces_last excl trs) as (tr' & E & Hk & _). rewrite H in E. injection E as <-.
      rewrite Hk, In_first_keys, Hall. cbn. tauto.
    - destruct (copytraces_first excl trs) as (tr' & E & Hk & _). rewrite H in E. injection E as <-.
      rewrite Hk, In_first_keys, Hall. cbn. tauto.
    - destruct (copytraces_no_overlaps excl trs) as (H1 & H2).
      destruct (ListDec.NoDup_dec string_dec (filter (fun k => negb (excl k)) (dkeys (all_items trs)))) as [Hn|Hn].
      + rewrite (H1 Hn) in H. injection H as <-. rewrite <- Hall.
        rewrite <- dkeys_filter_keep. reflexivity.
      + rewrite (H2 Hn) in H. discriminate.
  Qed.

  (** rerun *)
  Definition rerun_node (r r' : rv L) : Prop :=
    rv_value r' = detach L (rv_value r) /\ rv_prov r' = rv_prov r /\ rv_den r' = rv_den r /\
    match rv_den r with
    | Proper d => rv_logp r' = logp L d (detach L (rv_value r)) /\ rv_rep r' = rv_rep r
    | Improper f => rv_logp r' = f (detach L (rv_value r))
    | OtherRV => False
    end.
  Lemma rerun_rv_spec r : match rv_den r with
                          | OtherRV => rerun_rv r = Err NotImplementedError
                          | _ => exists r', rerun_rv r = Ok r' /\ rerun_node r r'
                          end.
  Proof.
    unfold rerun_rv, rerun_node. destruct (rv_den r); [..|reflexivity];
      (eexists; split; [reflexivity|]); cbn; auto.
  Qed.
  Lemma rerun_spec tr : wf_dict tr ->
    ((forall a r, In (a, r) tr -> rv_den r <> OtherRV) ->
       exists tr', rerun_with_detached_values tr = Ok tr' /\
         Forall2 (fun kr kr' => fst kr' = fst kr /\ rerun_node (snd kr) (snd kr')) tr tr') /\
    ((exists a r, In (a, r) tr /\ rv_den r = OtherRV) ->
       rerun_with_detached_values tr = Err NotImplementedError).
  Proof.
    intros Hwf. unfold rerun_with_detached_values. rewrite rerun_items_app by exact Hwf.
    induction tr as [|[k r] tr IH].
    - cbn. split; [|intros (a & r & [] & _)]. intros _. exists []. split; [reflexivity|constructor].
    - assert (Hwf' : wf_dict tr) by (inversion Hwf; assumption).
      specialize (IH Hwf'). destruct IH as [IH1 IH2]. cbn [fold_right fst snd].
      pose proof (rerun_rv_spec r) as Hr.
      set (rest := fold_right _ _ tr) in *. split.
      + intros Hall. destruct IH1 as (tr' & E & HF); [intros a r0 Hin; apply (Hall a r0); right; exact Hin|].
        destruct rest as [d|e]; cbn in E; [|discriminate]. injection E as ->.
        specialize (Hall k r (or_introl eq_refl)).
        destruct (rv_den r) eqn:Ed; [| |congruence]; destruct Hr as (r' & Er & Hn); rewrite Er; cbn;
          eexists; (split; [reflexivity|]); constructor; auto.
      + intros (a & r0 & [E|Hin] & Hd).
        * injection E as <- <-. rewrite Hd in Hr. rewrite Hr. reflexivity.
        * specialize (IH2 (ex_intro _ a (ex_intro _ r0 (conj Hin Hd)))).
          destruct (rv_den r) eqn:Ed.
          -- destruct Hr as (r' & Er & _). rewrite Er. cbn. destruct rest; cbn in *; [discriminate|congruence].
          -- destruct Hr as (r' & Er & _). rewrite Er. cbn. destruct rest; cbn in *; [discriminate|congruence].
          -- rewrite Hr. reflexivity.
  Qed.

  (** valeq *)
  Lemma trace_eq_spec t1 t2 a : trace_eq t1 t2 a = true <-> value_equal t1 t2 a.
  Proof.
    unfold trace_eq, value_equal. split.
    - destruct (dget a t1) as [r1|]; [|discriminate]. destruct (dget a t2) as [r2|]; [|discriminate].
      intros H. exists r1, r2. auto.
    - intros (r1 & r2 & -> & -> & H). exact H.
  Qed.
  Lemma valeq_go t1 t2 ns :
    let r := if negb (forallb (fun n => dmem n t1 && dmem n t2) ns) then Err PlainException
      else if (0 <? List.length (filter (fun n => negb (trace_eq t1 t2 n)) ns))%nat then Err PlainException
      else Ok true in
    (r = Ok true <-> forall a, In a ns -> value_equal t1 t2 a) /\ (r = Ok true \/ r = Err PlainException).
  Proof.
    cbn zeta. destruct (forallb (fun n => dmem n t1 && dmem n t2) ns) eqn:Ef; cbn [negb].
    - destruct (filter (fun n => negb (trace_eq t1 t2 n)) ns) as [|x l] eqn:El; cbn.
      + split; [|auto]. split; [|reflexivity]. intros _ a Ha. apply trace_eq_spec.
        destruct (trace_eq t1 t2 a) eqn:E; [reflexivity|].
        assert (Hin : In a (filter (fun n => negb (trace_eq t1 t2 n)) ns)) by (apply filter_In; rewrite E; auto).
        rewrite El in Hin. inversion Hin.
      + split; [|auto]. split; [discriminate|]. intros H.
        assert (Hin : In x (filter (fun n => negb (trace_eq t1 t2 n)) ns)) by (rewrite El; left; reflexivity).
        apply filter_In in Hin. destruct Hin as [Hin Hne]. apply H in Hin. apply trace_eq_spec in Hin.
        rewrite Hin in Hne. discriminate.
    - split; [|auto]. split; [discriminate|]. intros H. exfalso.
      assert (Ht : forallb (fun n => dmem n t1 && dmem n t2) ns = true).
      { apply forallb_forall. intros a Ha. destruct (H a Ha) as (r1 & r2 & E1 & E2 & _).
        unfold dmem. rewrite E1, E2. reflexivity. }
      congruence.
  Qed.
  Lemma valeq_spec t1 t2 nodes ce strict :
    match nodes with NodesPairs (_ :: _) => False | _ => True end ->
    (valeq t1 t2 nodes ce strict = Ok true <->
      forall a, selected t1 t2 nodes strict a -> value_equal t1 t2 a) /\
    (valeq t1 t2 nodes ce strict = Ok true \/ valeq t1 t2 nodes ce strict = Err PlainException).
  Proof.
    intros Hn. unfold valeq. destruct nodes as [|names|[|p ps]]; [| | |contradiction].
    - destruct (valeq_go t1 t2 (if strict then sunion (dkeys t1) (dkeys t2) else sinter (dkeys t1) (dkeys t2))) as [H1 H2].
      split; [|exact H2]. rewrite H1. unfold selected. destruct strict.
      + setoid_rewrite In_sunion. reflexivity.
      + setoid_rewrite In_sinter. reflexivity.
    - destruct (valeq_go t1 t2 names) as [H1 H2]. split; [exact H1|exact H2].
    - destruct (valeq_go t1 t2 []) as [H1 H2]. split; [|exact H2]. rewrite H1. reflexivity.
  Qed.
End ThmTraces.
