(** Proofs of C36-C38. *)
From Verif Require Export SpecOut BaseFacts.

Section PD.
  Context {V : Type}.
  Definition repr (d : dict V) (m : fmap V) : Prop := wf_dict d /\ forall k, dget k d = m k.

  Lemma ddel_absent k (d : dict V) : ~ In k (dkeys d) -> ddel k d = d.
  Proof.
    induction d as [|[k' v] d IH]; cbn; intros H; [reflexivity|].
    destruct (String.eqb_spec k k') as [->|_]; [tauto|]. rewrite IH by tauto. reflexivity.
  Qed.
  Lemma wf_ddel k (d : dict V) : wf_dict d -> wf_dict (ddel k d) /\ (forall x, In x (dkeys (ddel k d)) -> In x (dkeys d)).
  Proof.
    unfold wf_dict. induction d as [|[k' v] d IH]; cbn; intros H; [split; [exact H|tauto]|]. inversion H; subst.
    destruct (String.eqb k k'); [split; [assumption|tauto]|]. cbn. destruct (IH H3) as [I1 I2]. split.
    - constructor; [|exact I1]. intros Hi. apply H2, I2, Hi.
    - intros x [->|Hx]; [left; reflexivity|right; apply I2, Hx].
  Qed.
  Lemma dget_ddel k k' (d : dict V) : wf_dict d -> dget k (ddel k' d) = if String.eqb k k' then None else dget k d.
  Proof.
    unfold wf_dict. induction d as [|[a v] d IH]; cbn; intros H; [destruct (String.eqb k k'); reflexivity|].
    inversion H; subst. destruct (String.eqb_spec k' a) as [->|Hn].
    - destruct (String.eqb_spec k a) as [->|_]; [|reflexivity]. apply dget_None. assumption.
    - cbn. rewrite IH by assumption. destruct (String.eqb_spec k a) as [->|]; [|reflexivity].
      destruct (String.eqb_spec a k') as [->|]; [congruence|reflexivity].
  Qed.

  Lemma repr_set d m k (v : V) : repr d m -> repr (dset k v d) (fupd k (Some v) m).
  Proof.
    intros [H1 H2]. split; [apply wf_dset, H1|]. intros x. rewrite dget_dset. unfold fupd.
    destruct (String.eqb x k); [reflexivity|apply H2].
  Qed.
  Lemma repr_del d m k : repr d m -> repr (ddel k d) (fupd k None m).
  Proof.
    intros [H1 H2]. split; [apply wf_ddel, H1|]. intros x. rewrite dget_ddel by exact H1. unfold fupd.
    destruct (String.eqb x k); [reflexivity|apply H2].
  Qed.

  Lemma pd_step_spec o (d : dict V) m : repr d m -> ~ In (op_name o) class_attrs ->
    repr (fst (pd_step o d)) (fst (pd_spec o m)) /\
    snd (pd_step o d) = rmap (option_map Item) (snd (pd_spec o m)).
  Proof.
    intros Hr Hn. destruct o as [n|n v|n|n|n v|n]; cbn [op_name] in Hn; cbn [pd_step pd_spec fst snd write].
    - split; [exact Hr|]. unfold getattr. apply mem_not_In in Hn. rewrite Hn, (proj2 Hr). cbn. destruct (m n); reflexivity.
    - split; [apply repr_set, Hr|reflexivity].
    - unfold delattr, dmem, delete. rewrite (proj2 Hr). destruct (m n); cbn [fst snd].
      + split; [apply repr_del, Hr|reflexivity].
      + split; [exact Hr|reflexivity].
    - split; [exact Hr|]. unfold getitem. rewrite (proj2 Hr). cbn. destruct (m n); reflexivity.
    - split; [apply repr_set, Hr|reflexivity].
    - unfold delitem, dmem, delete. rewrite (proj2 Hr). destruct (m n); cbn [fst snd].
      + split; [apply repr_del, Hr|reflexivity].
      + split; [exact Hr|reflexivity].
  Qed.
  Lemma pd_run_spec ops : forall (d : dict V) m, repr d m -> (forall o, In o ops -> ~ In (op_name o) class_attrs) ->
    snd (pd_run ops d) = map (rmap (option_map Item)) (pd_spec_run ops m).
  Proof.
    induction ops as [|o ops IH]; intros d m Hr Hn; [reflexivity|].
    destruct (pd_step_spec o d m Hr (Hn o (or_introl eq_refl))) as [H1 H2]. cbn [pd_run pd_spec_run map].
    destruct (pd_step o d) as [d1 r]. cbn [fst snd] in *.
    specialize (IH d1 _ H1 (fun o' Ho => Hn o' (or_intror Ho))). destruct (pd_run ops d1) as [d2 rs]. cbn [snd] in *.
    rewrite H2, IH. reflexivity.
  Qed.

  (** ** Out *)
  Lemma make_out_get (t w o : V) extras k : wf_dict extras ->
    dget k (make_out t w o extras) =
      match dget k extras with
      | Some v => Some v
      | None => dget k [("trace", t); ("log_weight", w); ("output", o)]
      end.
  Proof. intros Hwf. apply (dget_dmerge k [("trace", t); ("log_weight", w); ("output", o)] extras Hwf). Qed.
  Lemma iter_out_spec (t w o : V) extras : wf_dict extras ->
    iter_out (make_out t w o extras) =
      Ok (Item (match dget "trace" extras with Some v => v | None => t end),
          Item (match dget "log_weight" extras with Some v => v | None => w end),
          Item (match dget "output" extras with Some v => v | None => o end),
          flat_map (fun n => match dget n extras with Some v => [(n, Item v)] | None => [] end)
                   ["ix"; "program"; "kernel"; "proposal"]).
  Proof.
    intros Hwf. unfold iter_out, optionals. cbn [collect]. unfold hasattr, getattr.
    change (mem "ix" class_attrs) with false. change (mem "program" class_attrs) with false.
    change (mem "kernel" class_attrs) with false. change (mem "proposal" class_attrs) with false.
    change (mem "trace" class_attrs) with false. change (mem "log_weight" class_attrs) with false.
    change (mem "output" class_attrs) with false. cbv iota.
    rewrite !make_out_get by exact Hwf. cbn [flat_map].
    destruct (dget "ix" extras), (dget "program" extras), (dget "kernel" extras), (dget "proposal" extras),
      (dget "trace" extras), (dget "log_weight" extras), (dget "output" extras); reflexivity.
  Qed.
  Lemma make_out_keys (t w o : V) extras : wf_dict extras ->
    dkeys (make_out t w o extras) =
      ["trace"; "log_weight"; "output"] ++ filter (fun k => negb (mem k ["trace"; "log_weight"; "output"])) (dkeys extras).
  Proof.
    intros Hwf. change (make_out t w o extras) with (dmerge [("trace", t); ("log_weight", w); ("output", o)] extras).
    change ["trace"; "log_weight"; "output"] with (dkeys [("trace", t); ("log_weight", w); ("output", o)]).
    generalize [("trace", t); ("log_weight", w); ("output", o)]. intros d. unfold dmerge. revert d. unfold wf_dict in Hwf.
    induction extras as [|[k v] ex IH]; intros d; [cbn; rewrite app_nil_r; reflexivity|]. cbn in Hwf. inversion Hwf; subst.
    cbn [fold_left fst snd]. rewrite IH by assumption. cbn [dkeys map fst filter].
    assert (Hf : forall d' : dict V, (forall x, x <> k -> mem x (dkeys d') = mem x (dkeys d)) ->
              filter (fun k0 => negb (mem k0 (dkeys d'))) (dkeys ex) = filter (fun k0 => negb (mem k0 (dkeys d))) (dkeys ex)).
    { intros d' Hd. clear IH. fold (dkeys ex) in H1, H2. clear Hwf. induction (dkeys ex) as [|y l IHl]; [reflexivity|]. cbn [filter].
      inversion H2; subst. rewrite Hd by (intros ->; apply H1; left; reflexivity). rewrite IHl; [reflexivity| |assumption].
      intros Hi. apply H1. right. exact Hi. }
    assert (Hm : forall x, x <> k -> mem x (dkeys (dset k v d)) = mem x (dkeys d)).
    { intros x Hx. destruct (mem x (dkeys d)) eqn:E.
      - apply mem_In. apply In_dkeys_dset. right. apply mem_In, E.
      - apply mem_not_In. rewrite In_dkeys_dset. apply mem_not_In in E. tauto. }
    fold (dkeys ex) in *. rewrite Hf by exact Hm. destruct (mem k (dkeys d)) eqn:E; cbn [negb].
    - rewrite dkeys_dset_old by (apply mem_In, E). reflexivity.
    - rewrite dset_new by (apply mem_not_In, E). rewrite dkeys_app, <- app_assoc. reflexivity.
  Qed.
End PD.

(** ** GlobalStore *)
Section GS.
  Context {V TR : Type}.
  Notation gstore := (@gstore V TR).

  Definition default_hooks (s : gstore) : Prop := hks s = noop_hooks.
  Lemma gs_step_default o (s : gstore) m : default_hooks s -> repr (items s) m ->
    default_hooks (fst (gs_step o s)) /\ repr (items (fst (gs_step o s))) (fst (gs_spec o m)) /\
    snd (gs_step o s) = snd (gs_spec o m).
  Proof.
    unfold default_hooks. destruct s as [d h lg]. cbn [items hks]. intros -> Hr. destruct o as [k|k v|k|k|e|tr tr2].
    - cbn. rewrite (proj2 Hr). destruct (m k); cbn; auto.
    - cbn. split; [reflexivity|]. split; [apply repr_set, Hr|reflexivity].
    - cbn. unfold gs_del, dmem, delete. cbn [items]. rewrite (proj2 Hr). destruct (m k); cbn; split; try reflexivity; split; try reflexivity.
      + apply repr_del, Hr.
      + exact Hr.
    - cbn. rewrite (proj2 Hr). auto.
    - cbn. split; [reflexivity|]. split; [|reflexivity]. clear lg. unfold dmerge. revert d m Hr.
      induction e as [|[k v] e IH]; intros d m Hr; [exact Hr|]. cbn [fold_left fst snd]. apply IH, repr_set, Hr.
    - cbn. auto.
  Qed.
  Lemma gs_run_default ops : forall (s : gstore) m, default_hooks s -> repr (items s) m ->
    snd (gs_run ops s) = gs_spec_run ops m.
  Proof.
    induction ops as [|o ops IH]; intros s m Hd Hr; [reflexivity|].
    destruct (gs_step_default o s m Hd Hr) as (H1 & H2 & H3). cbn [gs_run gs_spec_run].
    destruct (gs_step o s) as [s1 r]. cbn [fst snd] in *. specialize (IH s1 _ H1 H2).
    destruct (gs_run ops s1) as [s2 rs]. cbn [snd] in *. rewrite H3, IH. reflexivity.
  Qed.
End GS.
