(** C46, C48: the addresses and the store of the Gibbs experiment. *)
From Verif Require Import Gibbs BaseFacts KeyFacts Spec TraceFacts RunFacts RunInv Thm_Scope Thm_Systematic Instances.
From Coq Require Import Ascii.
Open Scope nat_scope.

Lemma show_z_no_us z : has_char "_"%char (show_z z) = false.
Proof. unfold show_z. destruct (z <? 0)%Z; [|apply show_no_us]. cbn [append has_char]. rewrite show_no_us. reflexivity. Qed.
Lemma show_no_minus n : has_char "-"%char (show n) = false.
Proof. destruct (has_char "-"%char (show n)) eqn:E; [|reflexivity]. apply show_digits in E. discriminate. Qed.
Lemma show_z_inj a b : show_z a = show_z b -> a = b.
Proof.
  unfold show_z. destruct (Z.ltb_spec a 0) as [Ha|Ha], (Z.ltb_spec b 0) as [Hb|Hb]; intros E.
  - injection E as E. apply show_inj in E. lia.
  - pose proof (show_no_minus (Z.to_nat b)) as H. rewrite <- E in H. cbn in H. discriminate.
  - pose proof (show_no_minus (Z.to_nat a)) as H. rewrite E in H. cbn in H. discriminate.
  - apply show_inj in E. lia.
Qed.
Lemma z_where_inj t s t' s' : z_where t s = z_where t' s' -> t = t' /\ s = s'.
Proof.
  unfold z_where. cbn [append]. intros E. injection E as E. apply split_first in E; try apply show_z_no_us.
  destruct E as [E1 E2]. split; apply show_z_inj; assumption.
Qed.
Lemma z_what_inj s s' : z_what s = z_what s' -> s = s'.
Proof. unfold z_what. cbn [append]. intros E. injection E as E. apply show_z_inj, E. Qed.

(** C46. The addresses of the latent variables, for all times and sweeps: equal addresses have equal
    indices, and no z_where address is a z_what address, "recon" or "frames". *)
Theorem C46_addresses :
  (forall t s t' s', z_where t s = z_where t' s' -> t = t' /\ s = s') /\
  (forall s s', z_what s = z_what s' -> s = s') /\
  (forall t s s', z_where t s <> z_what s') /\
  (forall t s, z_where t s <> "recon" /\ z_where t s <> "frames") /\
  (forall s, z_what s <> "recon" /\ z_what s <> "frames").
Proof.
  split; [exact z_where_inj|]. split; [exact z_what_inj|].
  split; [discriminate|]. split; split; discriminate.
Qed.
Print Assumptions C46_addresses.
Example C46_case : z_where 1 11 = "z_where_1_11" /\ z_where 11 1 = "z_where_11_1" /\ z_what (-1) = "z_what_-1".
Proof. repeat split. Qed.

(** ** the resample hook *)
Lemma hook_step_other {V W} (deref : V -> option (option W)) same mkref (tr retr : dict W) gs k0 :
  forall k, k <> k0 -> dget k (hook_step deref same mkref tr retr gs k0) = dget k gs.
Proof.
  intros k Hk. unfold hook_step. destruct (dget k0 gs); [|auto]. destruct (dget k0 retr); [|auto].
  destruct (dget k0 tr); [|auto]. destruct (deref _) as [[w1|]|]; auto. destruct (same _ _); [|auto].
  rewrite dget_dset. apply String.eqb_neq in Hk. rewrite Hk. reflexivity.
Qed.
Lemma hook_step_at {V W} (deref : V -> option (option W)) same mkref (tr retr : dict W) gs gs' k :
  dget k gs = dget k gs' ->
  dget k (hook_step deref same mkref tr retr gs k) = dget k (hook_step deref same mkref tr retr gs' k).
Proof.
  intros E. unfold hook_step. rewrite <- E. destruct (dget k gs) eqn:Eg; [|congruence].
  destruct (dget k retr); [|congruence]. destruct (dget k tr); [|congruence].
  destruct (deref _) as [[w2|]|]; try congruence. destruct (same _ _); [|congruence].
  rewrite !dget_dset. reflexivity || rewrite String.eqb_refl; reflexivity.
Qed.
Lemma hook_fold {V W} (deref : V -> option (option W)) same mkref (tr retr : dict W) ks : forall gs,
  NoDup ks ->
  let gs' := fold_left (hook_step deref same mkref tr retr) ks gs in
  forall k, dget k gs' = if mem k ks then dget k (hook_step deref same mkref tr retr gs k) else dget k gs.
Proof.
  induction ks as [|k0 ks IH]; intros gs Hnd; cbn zeta; [reflexivity|].
  inversion Hnd as [|? ? Hk0 Hnd']; subst. cbn [fold_left].
  pose proof (hook_step_other deref same mkref tr retr gs k0) as Hg1. pose proof (IH (hook_step deref same mkref tr retr gs k0) Hnd') as Hg2.
  intros k. rewrite Hg2, mem_cons. destruct (String.eqb_spec k k0) as [->|Hne].
  - replace (mem k0 ks) with false; [reflexivity|]. symmetry. apply mem_not_In. exact Hk0.
  - cbn [orb]. destruct (mem k ks); [|apply Hg1, Hne]. apply hook_step_at, Hg1, Hne.
Qed.

(** C48. A resampling step never raises; a stored weak reference under key [k] to the object that
    is the value of [k] in the incoming trace refers, afterwards, to the value of [k] in the
    resampled trace; every other entry is unchanged.  Objects are compared by identity. *)
Theorem C48_store_follows (items : dict sref) (l : list (event (V := sref) (TR := dict nat))) (tr retr : dict nat) :
  wf_dict tr ->
  let s := mkStore items (hks apg_store) l in
  exists s', gs_resample_update tr retr s = (s', Ok tt) /\
    (forall k v v', dget k items = Some (Weak v) -> dget k tr = Some v -> dget k retr = Some v' ->
       dget k (OutDict.items s') = Some (Weak v')) /\
    (forall k, ~ (exists v v', dget k items = Some (Weak v) /\ dget k tr = Some v /\ dget k retr = Some v') ->
       dget k (OutDict.items s') = dget k items).
Proof.
  intros Htr. cbn zeta. eexists. split; [reflexivity|]. cbn [OutDict.items after_hook fst].
  pose proof (hook_fold sref_deref Nat.eqb Weak tr retr (dkeys tr) items Htr) as H. cbn zeta in H.
  fold (resample_hook sref_deref Nat.eqb Weak items tr retr) in H. split.
  - intros k v v' H1 H2 H3. rewrite H.
    replace (mem k (dkeys tr)) with true by (symmetry; apply mem_In; eapply dget_In_keys; eauto).
    unfold hook_step. rewrite H1, H2, H3. cbn [sref_deref]. rewrite Nat.eqb_refl, dget_dset, String.eqb_refl. reflexivity.
  - intros k Hn. rewrite H. destruct (mem k (dkeys tr)); [|reflexivity]. unfold hook_step.
    destruct (dget k items) as [r|] eqn:E1; [|exact E1].
    destruct (dget k retr) as [v'|] eqn:E2; [|exact E1]. destruct (dget k tr) as [v|] eqn:E3; [|exact E1].
    destruct r as [w| |n]; cbn [sref_deref]; try exact E1. destruct (Nat.eqb_spec w v) as [->|Hne]; [|exact E1].
    exfalso. apply Hn. exists v, v'. auto.
Qed.
Print Assumptions C48_store_follows.

(** A call of Resample calls the store's hook once, after the resampled program [q] has run, with the
    trace of [q] and the trace that it returns. *)
Theorem C38_resample_calls_hook : forall (L : lib) oid (q : inf L) self_ix l0 rs dbg c kws s r s',
  returns (run (IResample oid q self_ix l0 rs dbg) c kws) s r s' ->
  exists kws0 qo s1, returns (run q c kws0) s qo s1 /\
    hook s (store s1) (out_trace qo) (out_trace r) = Ok (store s') /\ conds s' = conds s1 /\ hook s' = hook s.
Proof.
  intros L oid q self_ix l0 rs dbg c kws s r s' H. apply outcome_path in H. destruct H as [ds H]. apply run_resample_path in H.
  destruct H as (ds1 & ds2 & qo & s1 & items & lw2 & c1 & c2 & st2 & _ & Hq & _ & _ & _ & Hh & -> & -> & _).
  apply path_outcome in Hq. eexists. exists qo, s1. split; [exact Hq|]. apply run_scoped in Hq. destruct Hq as (_ & _ & E). rewrite <- E. cbn. auto.
Qed.
Print Assumptions C38_resample_calls_hook.

(** C48 for a whole call of Resample, of any program with any resampler: [s1] is the state in which [q]
    left the store.  A reference to a tensor of q's trace becomes a reference to the
    tensor at the same address in the resampled trace; nothing else changes. *)
Theorem C48_after_resample : forall (L : lib) (same : T L -> T L -> bool) oid (q : inf L) self_ix l0 rs dbg c kws s r s',
  wf_dict kws -> wf_st s -> hook s = apg_hook same ->
  returns (run (IResample oid q self_ix l0 rs dbg) c kws) s r s' ->
  exists kws0 qo s1, returns (run q c kws0) s qo s1 /\
    let follows k v' := exists w v, dget k (store s1) = Some (VTensor w) /\ dget k (out_trace qo) = Some v /\
                                    same w (rv_value v) = true /\ dget k (out_trace r) = Some v' in
    (forall k v', follows k v' -> dget k (store s') = Some (VTensor (rv_value v'))) /\
    (forall k, ~ (exists v', follows k v') -> dget k (store s') = dget k (store s1)).
Proof.
  intros L same oid q self_ix l0 rs dbg c kws s r s' Hkw Hst Hh H. apply outcome_path in H. destruct H as [ds H]. apply run_resample_path in H.
  destruct H as (ds1 & ds2 & qo & s1 & items & lw2 & c1 & c2 & st2 & _ & Hq & _ & _ & _ & Hu & -> & -> & _).
  apply path_outcome in Hq. eexists. exists qo, s1. split; [exact Hq|].
  pose proof (proj1 (run_returns_wf _ _ _ _ _ _ (wf_sub_kwargs _ _ Hkw) Hst Hq)) as Hwf.
  apply run_scoped in Hq. destruct Hq as (_ & _ & E). rewrite E, Hh in Hu. unfold apg_hook in Hu. injection Hu as <-. cbn [store set_store].
  set (vals := fun t : trace L => map (fun kv => (fst kv, rv_value (snd kv))) t).
  set (deref := fun v => match v with VTensor t => Some (Some t) | _ => None end).
  assert (Hv : forall k t, dget k (vals t) = option_map rv_value (dget k t)).
  { intros k t. induction t as [|[a x] t IH]; [reflexivity|]. cbn [vals map dget fst snd]. destruct (String.eqb k a); [reflexivity|exact IH]. }
  assert (Hkeys : dkeys (vals (out_trace qo)) = dkeys (out_trace qo)).
  { unfold vals, dkeys. rewrite map_map. reflexivity. }
  assert (HF : forall k, dget k (resample_hook deref same VTensor (store s1) (vals (out_trace qo)) (vals (as_trace items))) =
    if mem k (dkeys (out_trace qo)) then dget k (hook_step deref same VTensor (vals (out_trace qo)) (vals (as_trace items)) (store s1) k) else dget k (store s1)).
  { intros k. unfold resample_hook. rewrite Hkeys. apply hook_fold. exact Hwf. }
  cbv zeta. split.
  - intros k v' (w & v & H1 & H2 & H3 & H4). rewrite HF.
    replace (mem k (dkeys (out_trace qo))) with true by (symmetry; apply mem_In; eapply dget_In_keys; eauto).
    unfold hook_step. rewrite H1, !Hv, H2, H4. cbn [option_map deref]. rewrite H3, dget_dset, String.eqb_refl. reflexivity.
  - intros k Hn. rewrite HF. destruct (mem k (dkeys (out_trace qo))); [|reflexivity]. unfold hook_step. rewrite !Hv.
    destruct (dget k (store s1)) as [x|] eqn:E1; [|exact E1]. destruct (dget k (as_trace items)) as [v'|] eqn:E2; cbn [option_map]; [|exact E1].
    destruct (dget k (out_trace qo)) as [v|] eqn:E3; cbn [option_map]; [|exact E1].
    destruct x; cbn [deref]; try exact E1. destruct (same _ _) eqn:Es; [|exact E1]. exfalso. apply Hn. exists v'. eexists _, v. eauto.
Qed.
Print Assumptions C48_after_resample.
(** a model that stores a reference to what it sampled, resampled by taking the old value plus one *)
Definition refs_model : pyval ZT -> dict (pyval ZT) -> model ZL := fun _ _ =>
  MVar (L := ZL) "x" 0%Z None true (fun x => MSetStore (L := ZL) "x" (VTensor x) (MSetStore (L := ZL) "y" (VTensor (zten 5)) (MRet (L := ZL) (VDict [])))).
Definition next_rs : resampler ZL := mkRS (L := ZL) sig_model (fun tr lw _ =>
  Leaf (Ok (map (fun kv => (fst kv, mkRV (L := ZL) (rv_den (snd kv)) (tadd ZL (rv_value (snd kv)) (zten 1)) (rv_logp (snd kv)) (rv_prov (snd kv)) true true)) tr, lw))).
Definition refs_st : st ZL := mkSt (L := ZL) [] [] (apg_hook (L := ZL) (tensor_equal ZL)) [].
Example C48_run : exists r s', wf_st refs_st /\
  returns (run (L := ZL) (IResample (L := ZL) 1 (IProg (L := ZL) 0 sig_model refs_model) VNone None next_rs false) VNone []) refs_st r s' /\
  store s' = [("x", VTensor (tadd ZL (zten 7) (zten 1))); ("y", VTensor (zten 5))].
Proof.
  destruct (seen_by (L := ZL) (run (IResample (L := ZL) 1 (IProg (L := ZL) 0 sig_model refs_model) VNone None next_rs false) VNone []) refs_st [zten 7]
    (fun _ s' => store s') [("x", VTensor (tadd ZL (zten 7) (zten 1))); ("y", VTensor (zten 5))]) as (r & s' & H & E); [vm_compute; reflexivity|].
  exists r, s'. split; [intros i t Hi; discriminate|]. split; assumption.
Qed.

(** ... and the store accepts weak references only: anything else raises and stores nothing. *)
Theorem C48_weak_only (items : dict sref) l k v :
  let s := mkStore items (hks apg_store) l in
  let '(s', r) := gs_set (TR := dict nat) k v s in
  match v with
  | Strong _ => r = Err AssertionError /\ OutDict.items s' = items
  | _ => r = Ok tt /\ OutDict.items s' = dset k v items
  end.
Proof. cbn zeta. destruct v; cbn; auto. Qed.
Print Assumptions C48_weak_only.
Example C48_case : exists s', gs_resample_update [("a", 1); ("b", 2); ("c", 3)] [("a", 7); ("b", 8)]
    (mkStore [("a", Weak 1); ("b", Weak 5); ("c", Weak 3); ("d", Dead)] (hks apg_store) []) = (s', Ok tt) /\
  OutDict.items s' = [("a", Weak 7); ("b", Weak 5); ("c", Weak 3); ("d", Dead)].
Proof. eexists. split; reflexivity. Qed.
