(** Every run of gibbs_sweeps: the programs, one step, all sweeps. *)
From Verif Require Export Thm_Sweeps.
From Verif Require Import Prop_Gibbs.
Open Scope nat_scope.

Lemma tensor_dset {L : lib} k k' x (d : dict (pyval (T L))) : tensor_at (L := L) k d \/ k = k' -> tensor_at (L := L) k (dset k' (VTensor x) d).
Proof. unfold tensor_at. rewrite dget_dset. destruct (String.eqb_spec k k') as [->|Hne]; [eauto|]. intros [H|H]; [exact H|contradiction]. Qed.
Lemma item_tensor {L : lib} k (d : dict (pyval (T L))) : tensor_at (L := L) k d -> exists x, item L (VDict d) k = Ok x.
Proof. intros [x Hx]. exists x. unfold item. rewrite Hx. reflexivity. Qed.

Section GibbsRun.
  Context {L : lib} (HL : lib_laws L) (HT : tensor_laws L) (Hlj : forall r b p, lj_ok L r b p = true).
  Notation pyval := (pyval (T L)). Notation trace := (trace L). Notation out := (out L).
  Context (N : nets L) (same : T L -> T L -> bool) (wmean : T L -> T L -> T L) (node_sum : T L -> T L) (rs : resampler L).
  Context (Hrs : keeps_addresses rs) (Hdet : forall x, n_frames L N (detach L x) = n_frames L N x).
  Context (T_ : nat) (Hpos : 0 < T_) (c0 : dict pyval) (fr : T L).
  Context (Hc0 : dget "frames" c0 = Some (VTensor fr)) (Hfr : n_frames L N fr = T_).

  (** ** the programs *)
  Definition moved (s s' : st L) (d : dict pyval) : Prop := conds s' = conds s /\ hook s' = hook s /\ store s' = d.

  Lemma enc_coor_fwd kws s d f t sweep : plain_call kws -> kwarg "ix" VNone kws = apg_ix L (Z.of_nat t) sweep "forward" ->
    dget "frames" d = Some (VTensor f) -> n_frames L N f = T_ -> t < T_ ->
    (sweep = 0%Z \/ tensor_at (L := L) (z_what (sweep - 1)) d) ->
    always (run (enc_coor L N) (VDict d) kws s) (fun x => exists o z nd, fst x = Ok o /\
      out_trace o = [(z_where (Z.of_nat t) sweep, nd)] /\
      out_output o = VDict (if Z.eqb sweep 0 then dset (z_where (Z.of_nat t) sweep) (VTensor z) d else d) /\
      moved s (snd x) (dset (z_where (Z.of_nat t) sweep) (VTensor z) (store s))).
  Proof.
    intros Hp Hix Hf Hn Ht Hk. unfold enc_coor. apply (always_prog HL HT Hlj); [exact Hp|reflexivity|].
    unfold enc_coor_model. rewrite prog_kwargs_ix, Hix; [|cbn; tauto|apply Hp]. cbn [of_ix apg_ix].
    assert (Ei : item L (VDict d) "frames" = Ok f) by (unfold item; rewrite Hf; reflexivity).
    rewrite Ei. cbn [of_res].
    assert (Ek : exists kr, (if Z.eqb sweep 0 then Ok None else rmap Some (item L (VDict d) (z_what (sweep - 1)))) = Ok kr).
    { destruct (Z.eqb_spec sweep 0) as [_|Hne]; [eauto|]. destruct Hk as [Hk|Hk]; [contradiction|].
      destruct (item_tensor _ _ Hk) as [x Hx]. rewrite Hx. eexists. reflexivity. }
    destruct Ek as [kr ->]. cbn [of_res]. rewrite Hn.
    assert (Er : (Z.of_nat t <? 0)%Z || (Z.of_nat T_ <=? Z.of_nat t)%Z = false).
    { apply orb_false_iff. split; [apply Z.ltb_ge; lia|apply Z.leb_gt; lia]. }
    rewrite Er. cbn [is_forward mem existsb String.eqb Ascii.eqb Bool.eqb orb of_res].
    apply always_objects. intros zs. apply always_value; [intros []|]. cbn [exec app].
    apply always_leaf. cbn [fst snd]. intros lw _. exists (mkOut [(z_where (Z.of_nat t) sweep,
       mkRV (Proper (coor_all L N f kr (Z.of_nat t) zs)) (coor_cat L N zs) (logp L (coor_all L N f kr (Z.of_nat t) zs) (coor_cat L N zs)) SAMPLED (reparam L N) true)]
       lw (VDict (if Z.eqb sweep 0 then dset (z_where (Z.of_nat t) sweep) (VTensor (coor_cat L N zs)) d else d)) TyProgram None None None None []).
    eexists. eexists. split; [|split; [reflexivity|split; [reflexivity|repeat split]]].
    destruct (Z.eqb sweep 0); reflexivity.
  Qed.

  Lemma enc_coor_rev kws s d f t sweep ct : plain_call kws -> kwarg "ix" VNone kws = apg_ix L (Z.of_nat t) sweep "reverse" ->
    dget "frames" d = Some (VTensor f) -> n_frames L N f = T_ -> t < T_ ->
    tensor_at (L := L) (z_what (sweep - 1)) d -> get_cond 1 s = Some ct -> In (z_where (Z.of_nat t) (sweep - 1)) (dkeys ct) ->
    always (run (enc_coor L N) (VDict d) kws s) (fun x => exists o nd nd', fst x = Ok o /\
      out_trace o = [(z_where (Z.of_nat t) (sweep - 1), nd)] /\ rv_prov nd = REUSED /\
      dget (z_where (Z.of_nat t) (sweep - 1)) ct = Some nd' /\ rv_value nd = rv_value nd' /\
      moved s (snd x) (store s)).
  Proof.
    intros Hp Hix Hf Hn Ht Hk Hc Hin. unfold enc_coor. apply (always_prog HL HT Hlj); [exact Hp|reflexivity|].
    unfold enc_coor_model. rewrite prog_kwargs_ix, Hix; [|cbn; tauto|apply Hp]. cbn [of_ix apg_ix].
    assert (Ei : item L (VDict d) "frames" = Ok f) by (unfold item; rewrite Hf; reflexivity).
    rewrite Ei. cbn [of_res].
    assert (Ek : exists kr, (if Z.eqb sweep 0 then Ok None else rmap Some (item L (VDict d) (z_what (sweep - 1)))) = Ok kr).
    { destruct (Z.eqb_spec sweep 0) as [_|Hne]; [eauto|]. destruct (item_tensor _ _ Hk) as [x Hx]. rewrite Hx. eexists. reflexivity. }
    destruct Ek as [kr ->]. cbn [of_res]. rewrite Hn.
    assert (Er : (Z.of_nat t <? 0)%Z || (Z.of_nat T_ <=? Z.of_nat t)%Z = false).
    { apply orb_false_iff. split; [apply Z.ltb_ge; lia|apply Z.leb_gt; lia]. }
    rewrite Er. cbn [is_forward mem existsb String.eqb Ascii.eqb Bool.eqb orb of_res].
    cbn [exec]. rewrite Hc. apply In_dkeys in Hin. destruct Hin as [nd' Hnd']. rewrite Hnd'.
    apply always_var; [intros []|]. intros nd (v & p & -> & Hv). unfold looked_up in Hv. rewrite Hnd' in Hv. destruct Hv as [-> ->].
    cbn [exec app]. apply always_leaf. cbn [fst snd]. intros lw _. eexists. eexists. exists nd'.
    split; [reflexivity|]. cbn [out_trace]. repeat split.
  Qed.

  Lemma items_tensors d ks : (forall k, In k ks -> tensor_at (L := L) k d) -> exists l, items_of L (VDict d) ks = Ok l.
  Proof.
    induction ks as [|k ks IH]; intros H; [exists []; reflexivity|]. cbn [items_of].
    destruct (item_tensor k d) as [x Hx]; [apply H; left; reflexivity|]. rewrite Hx. cbn [rbind].
    destruct IH as [l Hl]; [intros k' Hk'; apply H; right; exact Hk'|]. rewrite Hl. eexists. reflexivity.
  Qed.

  Lemma enc_digit_gen kws s d f sweep dir fwd : plain_call kws -> kwarg "ix" VNone kws = apg_ix L (Z.of_nat T_) sweep dir ->
    is_forward dir = Ok fwd ->
    dget "frames" d = Some (VTensor f) -> n_frames L N f = T_ ->
    (forall i, i < T_ -> tensor_at (L := L) (z_where (Z.of_nat i) sweep) d) ->
    let name := z_what (if fwd then sweep else sweep - 1)%Z in
    always (run (enc_digit L N) (VDict d) kws s) (fun x => exists o nd dd, fst x = Ok o /\
      out_trace o = [(name, nd)] /\ node_of (get_cond 2 s) name dd (reparam L N) nd /\
      moved s (snd x) (if fwd then dset name (VTensor (rv_value nd)) (store s) else store s)).
  Proof.
    intros Hp Hix Hdir Hf Hn Hw name. unfold enc_digit. apply (always_prog HL HT Hlj); [exact Hp|reflexivity|].
    unfold enc_digit_model. rewrite prog_kwargs_ix, Hix; [|cbn; tauto|apply Hp]. cbn [of_ix apg_ix].
    assert (Ei : item L (VDict d) "frames" = Ok f) by (unfold item; rewrite Hf; reflexivity).
    rewrite Ei. cbn [of_res].
    destruct (item_tensor (z_where 0 sweep) d) as [x0 Hx0]; [exact (Hw 0 Hpos)|]. rewrite Hx0. cbn [of_res]. rewrite Hn.
    destruct (items_tensors d (map (fun i => z_where (Z.of_nat i) sweep) (seq 0 T_))) as [l Hl].
    { intros k Hk. apply in_map_iff in Hk. destruct Hk as (i & <- & Hi). apply in_seq in Hi. apply Hw. lia. }
    rewrite Hl. cbn [of_res]. rewrite Hdir. cbn [of_res]. fold name.
    apply always_var; [intros []|]. intros nd Hnd. destruct fwd; cbn [exec app]; apply always_leaf; cbn [fst snd]; intros lw _;
      eexists; exists nd; eexists; (split; [reflexivity|]); cbn [out_trace]; (split; [reflexivity|]); (split; [exact Hnd|]); repeat split.
  Qed.

  (** *** the decoder, conditioned on a trace that has all its latent variables *)
  Definition what_addr (t s : nat) : string := z_what (if Nat.eqb t T_ then Z.of_nat s else (Z.of_nat s - 1)%Z).
  Definition full_output (t s : nat) (d : dict pyval) : Prop :=
    (exists f, dget "frames" d = Some (VTensor f) /\ n_frames L N f = T_) /\
    tensor_at (L := L) (what_addr t s) d /\
    (forall i, i < Nat.min (t + 1) T_ -> tensor_at (L := L) (z_where (Z.of_nat i) (Z.of_nat s)) d) /\
    (forall k v, In (k, v) d -> exists x, v = VTensor x).
  Definition from (ct tr : trace) : Prop := forall a nd, dget a tr = Some nd ->
    (a = "recon" /\ rv_prov nd = OBSERVED) \/
    (rv_prov nd = REUSED /\ exists nd', dget a ct = Some nd' /\ rv_value nd = rv_value nd').

  Lemma posterior_In t s a : In a (posterior_addresses T_ t s) <->
    (exists i, i < T_ /\ a = current_where (Z.of_nat t) (Z.of_nat s) i) \/ a = what_addr t s \/ a = "recon".
  Proof.
    unfold posterior_addresses. rewrite in_app_iff, in_map_iff. cbn [In]. fold (what_addr t s). split.
    - intros [(i & <- & Hi)|[<-|[<-|[]]]]; auto. apply in_seq in Hi. left. exists i. split; [lia|reflexivity].
    - intros [(i & Hi & ->)|[->| ->]]; auto. left. exists i. split; [reflexivity|]. apply in_seq. lia.
  Qed.

  Lemma dec_run kws s t sw dir ct : plain_call kws -> kwarg "ix" VNone kws = apg_ix L (Z.of_nat t) (Z.of_nat sw) dir ->
    t <= T_ -> (0 < sw \/ t = T_) ->
    get_cond 3 s = Some ct -> (forall a, In a (posterior_addresses T_ t sw) -> a <> "recon" -> In a (dkeys ct)) ->
    (forall i, i < Nat.min (t + 1) T_ -> tensor_at (L := L) (z_where (Z.of_nat i) (Z.of_nat sw)) (store s)) ->
    always (run (dec L N) (VDict c0) kws s) (fun x => exists o d, fst x = Ok o /\ wf_dict (out_trace o) /\
      dkeys (out_trace o) = posterior_addresses T_ t sw /\ from ct (out_trace o) /\ is_tensor L (out_lw o) = true /\
      out_output o = VDict d /\ full_output t sw d /\ dget "frames" d = Some (VTensor fr) /\ moved s (snd x) (store s)).
  Proof.
    intros Hp Hix Ht Hsw Hc Hall Hst. unfold dec. apply (always_prog HL HT Hlj); [exact Hp|reflexivity|].
    unfold dec_model. rewrite prog_kwargs_ix, Hix; [|cbn; tauto|apply Hp]. cbn [of_ix apg_ix].
    assert (Ei : item L (VDict c0) "frames" = Ok fr) by (unfold item; rewrite Hc0; reflexivity).
    rewrite Ei. cbn [of_res]. cbn zeta. rewrite Hfr, Hc.
    apply always_where.
    - cbn [dkeys map app]. apply where_names_NoDup.
    - intros name key Hin. apply in_map_iff in Hin. destruct Hin as (i & E & Hi). apply in_seq in Hi.
      unfold where_site in E. cbn [log_call store].
      destruct (Z.leb_spec (Z.of_nat i) (Z.of_nat t)).
      + destruct (Z.eqb_spec (Z.of_nat i) 0); [discriminate|]. injection E as _ <-.
        replace (Z.of_nat i - 1)%Z with (Z.of_nat (i - 1)) by lia. apply Hst. lia.
      + assert (E' : key = z_where (Z.of_nat t) (Z.of_nat sw)) by (destruct (_ =? _)%Z in E; injection E as _ <-; reflexivity).
        subst key. apply Hst. lia.
    - intros nodes HF. cbn [app]. pose proof (site_nodes_keys _ _ _ _ _ HF) as Hkeys.
      assert (Hix' : what_index T_ (Z.of_nat t) (Z.of_nat sw) = Ok (if Nat.eqb t T_ then Z.of_nat sw else (Z.of_nat sw - 1)%Z)).
      { unfold what_index. destruct (Nat.eqb_spec t T_) as [->|Hne].
        - rewrite Z.eqb_refl. reflexivity.
        - destruct (Z.eqb_spec (Z.of_nat t) (Z.of_nat T_)); [lia|].
          assert (E : (Z.of_nat t <? Z.of_nat T_)%Z && (0 <? Z.of_nat sw)%Z = true).
          { apply andb_true_iff. split; apply Z.ltb_lt; lia. }
          rewrite E. reflexivity. }
      rewrite Hix'. cbn [of_res]. fold (what_addr t sw).
      assert (Hnw : ~ In (what_addr t sw) (dkeys nodes)).
      { rewrite Hkeys, where_names_In. intros (i & _ & E). rewrite where_site_name in E. discriminate. }
      apply always_var; [exact Hnw|]. intros ndw Hndw.
      assert (Hnr : ~ In "recon" (dkeys (nodes ++ [(what_addr t sw, ndw)]))).
      { rewrite dkeys_app, in_app_iff. cbn [dkeys map fst In]. rewrite Hkeys, where_names_In.
        intros [(i & _ & E)|[E|[]]]; [rewrite where_site_name in E; discriminate|discriminate]. }
      apply always_value; [exact Hnr|].
      set (ndr := mkRV _ _ _ OBSERVED _ true).
      assert (Hk3 : dkeys ((nodes ++ [(what_addr t sw, ndw)]) ++ [("recon", ndr)]) = posterior_addresses T_ t sw).
      { rewrite !dkeys_app, Hkeys. unfold posterior_addresses. fold (what_addr t sw). rewrite <- app_assoc. cbn [dkeys map fst app].
        f_equal. rewrite map_map. apply map_ext. intros i. apply where_site_name. }
      assert (Hwf : wf_dict ((nodes ++ [(what_addr t sw, ndw)]) ++ [("recon", ndr)])).
      { assert (W1 : wf_dict nodes) by (unfold wf_dict; rewrite Hkeys; apply where_names_NoDup).
        apply wf_app; [apply wf_app; [exact W1|repeat constructor; intros []|]|repeat constructor; intros []|].
        - intros k Hk [<-|[]]. exact (Hnw Hk).
        - intros k Hk [<-|[]]. exact (Hnr Hk). }
      apply always_read.
      + intros key Hin. apply in_map_iff in Hin. destruct Hin as (i & <- & Hi). apply in_seq in Hi. cbn [log_call store]. apply Hst.
        replace (Z.to_nat (Z.of_nat t + 1)) with (t + 1) in Hi by lia. lia.
      + intros acc H1 H2 H3. cbn [exec]. apply always_leaf. cbn [fst snd]. intros lw Hlw.
        eexists. eexists. split; [reflexivity|]. cbn [out_trace out_output out_lw].
        split; [exact Hwf|]. split; [exact Hk3|].
        assert (Hframes : forall i z, "frames" <> z_where i z) by discriminate.
        split.
        { intros a nd Ha. apply dget_In in Ha. apply in_app_or in Ha. destruct Ha as [Ha|[E|[]]].
          - right. assert (Hin : In a (dkeys ct)).
            { assert (Hka : In a (dkeys (nodes ++ [(what_addr t sw, ndw)]))) by (apply (in_map fst) in Ha; exact Ha).
              apply Hall; [rewrite <- Hk3, dkeys_app; apply in_or_app; left; exact Hka|].
              intros ->. exact (Hnr Hka). }
            apply In_dkeys in Hin. destruct Hin as [nd' Hnd'].
            assert (Hnode : exists dd, node_of (Some ct) a dd (reparam L N) nd).
            { apply in_app_or in Ha. destruct Ha as [Ha|[E|[]]].
              - apply In_nth_error in Ha. destruct Ha as [i Hi].
                assert (Hlen : i < T_).
                { assert (i < length nodes) by (apply nth_error_Some; congruence).
                  assert (length nodes = T_); [|lia]. 
                  transitivity (length (dkeys nodes)); [unfold dkeys; rewrite map_length; reflexivity|]. rewrite Hkeys, !map_length, seq_length. reflexivity. }
                destruct (Forall2_nth_seq _ _ _ _ HF i Hlen) as (kv & Hkv & Hn & Hd). rewrite Hi in Hkv. injection Hkv as <-.
                cbn [fst snd] in Hn, Hd. rewrite <- Hn in Hd. destruct (snd (where_site _ _ _)) as [key|].
                + destruct Hd as (loc & _ & Hd). eauto.
                + eauto.
              - injection E as <- <-. eauto. }
            destruct Hnode as (dd & v & p & -> & Hv). unfold looked_up in Hv. rewrite Hnd' in Hv. destruct Hv as [-> ->].
            split; [reflexivity|]. exists nd'. auto.
          - injection E as <- <-. left. auto. }
        split.
        { apply Hlw; [|exact Hwf]. exists "recon". do 4 eexists. split; [|reflexivity].
          rewrite dget_app. rewrite (proj2 (dget_None _ _) Hnr). cbn. reflexivity. }
        split; [reflexivity|]. split; [|split; [rewrite dget_dset, String.eqb_refl; reflexivity|repeat split]].
        split; [exists fr; split; [rewrite dget_dset, String.eqb_refl; reflexivity|exact Hfr]|].
        split; [apply tensor_dset; left; apply tensor_dset; auto|]. split.
        { intros i Hi. apply tensor_dset. left. apply tensor_dset. left. apply H1. left. apply in_map_iff. exists i. split; [reflexivity|].
          apply in_seq. replace (Z.to_nat (Z.of_nat t + 1)) with (t + 1) by lia. lia. }
        { assert (Hwa : wf_dict acc) by (apply H3, wf_nil).
          intros k v Hin. apply In_dget in Hin; [|apply wf_dset, wf_dset, Hwa]. rewrite !dget_dset in Hin.
          destruct (String.eqb k "frames"); [injection Hin as <-; eauto|]. destruct (String.eqb k _); [injection Hin as <-; eauto|].
          assert (Hk : In k (dkeys acc)) by (eapply dget_In_keys; exact Hin).
          destruct (H2 k Hk) as [Hk'|[]]. destruct (H1 k (or_introl Hk')) as [y Hy]. rewrite Hy in Hin. injection Hin as <-. eauto. }
  Qed.

  (** ** stages *)
  Definition calm (s : st L) : Prop := clean s /\ hook s = apg_hook same.
  Lemma calm_wf s : calm s -> wf_st s.
  Proof. intros [H _] i t E. rewrite H in E. discriminate. Qed.
  Lemma calm_moved s s' d : calm s -> moved s s' d -> calm s'.
  Proof. intros [H1 H2] (E1 & E2 & _). split; [|congruence]. intros i. unfold get_cond. rewrite E1. apply H1. Qed.

  Definition ready (t s : nat) (o : out) (s' : st L) : Prop :=
    wf_dict (out_trace o) /\ (forall a, In a (dkeys (out_trace o)) <-> In a (posterior_addresses T_ t s)) /\
    (exists d, out_output o = VDict d /\ full_output t s d) /\
    (forall i, i < Nat.min (t + 1) T_ -> tensor_at (L := L) (z_where (Z.of_nat i) (Z.of_nat s)) (store s')) /\ calm s'.

  (** *** Resample *)
  Lemma hook_step_tensor k k0 (gs : dict pyval) (tr retr : dict (T L)) : tensor_at (L := L) k gs ->
    tensor_at (L := L) k (hook_step (fun v : pyval => match v with VTensor t => Some (Some t) | _ => None end) same VTensor tr retr gs k0).
  Proof.
    intros H. unfold hook_step. destruct (dget k0 gs) as [v|]; [|exact H]. destruct (dget k0 retr); [|exact H]. destruct (dget k0 tr); [|exact H].
    destruct v; try exact H. destruct (same _ _); [|exact H]. apply tensor_dset. auto.
  Qed.
  Lemma hook_tensor k (gs : dict pyval) (tr retr : dict (T L)) : tensor_at (L := L) k gs ->
    tensor_at (L := L) k (resample_hook (fun v : pyval => match v with VTensor t => Some (Some t) | _ => None end) same VTensor gs tr retr).
  Proof.
    unfold resample_hook. revert gs. generalize (dkeys tr) as ks. induction ks as [|k0 ks IH]; intros gs H; cbn [fold_left]; [exact H|].
    apply IH, hook_step_tensor, H.
  Qed.
  Lemma resample_output_ok (tr : trace) : forall c1 : dict pyval, (forall k v, In (k, v) c1 -> exists x, v = VTensor x) ->
    exists c2, resample_output c1 tr = Ok c2 /\ (forall k v, In (k, v) c2 -> exists x, v = VTensor x) /\
      (forall k, tensor_at (L := L) k c1 -> tensor_at (L := L) k c2) /\ (forall k, ~ In k (dkeys tr) -> dget k c2 = dget k c1).
  Proof.
    induction c1 as [|[k v] c1 IH]; intros H; [exists []; cbn; repeat split; [intros k v []|auto]|].
    destruct IH as (c2 & E & H1 & H2 & H3); [intros k' v' Hin; apply (H k' v'); right; exact Hin|].
    destruct (H k v (or_introl eq_refl)) as [x ->]. cbn [resample_output].
    assert (Ev : exists y, match dget k tr with None => Ok (VTensor x) | Some r => Ok (VTensor (rv_value r)) end = Ok (VTensor y)) by (destruct (dget k tr); eauto).
    destruct (dget k tr) as [r|] eqn:Ek; cbn [rbind]; rewrite E; cbn [rbind].
    - eexists. split; [reflexivity|]. split; [intros k' v' [[= <- <-]|Hin]; [eauto|apply (H1 k' v' Hin)]|]. split.
      + intros k' Hk'. unfold tensor_at in *. cbn [dget] in *. destruct (String.eqb k' k); [eauto|apply H2, Hk'].
      + intros k' Hk'. cbn [dget]. destruct (String.eqb_spec k' k) as [->|_]; [exfalso; apply Hk'; eapply dget_In_keys, Ek|apply H3, Hk'].
    - eexists. split; [reflexivity|]. split; [intros k' v' [[= <- <-]|Hin]; [eauto|apply (H1 k' v' Hin)]|]. split.
      + intros k' Hk'. unfold tensor_at in *. cbn [dget] in *. destruct (String.eqb k' k); [eauto|apply H2, Hk'].
      + intros k' Hk'. cbn [dget]. destruct (String.eqb_spec k' k) as [->|_]; [reflexivity|apply H3, Hk'].
  Qed.

  Definition good (t s : nat) (x : res out * st L) : Prop :=
    match fst x with Ok o => ready t s o (snd x) | Err e => resampler_raises T_ rs e end.

  Lemma resample_good oid q t s kws s0 : plain_call kws ->
    always (run q (VDict c0) (sub_kwargs VNone kws) s0) (good t s) ->
    always (run (resampled L rs oid q) (VDict c0) kws s0) (good t s).
  Proof.
    intros Hp H. apply always_resample; [exact Hp|]. eapply always_impl; [exact H|]. intros [[qo|e] s1]; unfold good; cbn [fst snd]; [|auto].
    intros (Hwf & Hk & (d & Ed & (f & Hf & Hnf) & Hw & Hz & Ht) & Hst & Hcalm). exists d. split; [exact Ed|]. split.
    - intros e kw He. exists t, s. do 3 eexists. split; [exact Hwf|]. split; [exact Hk|exact He].
    - intros items lw2 kw Hitems. pose proof (Hrs _ _ _ _ _ Hwf Hitems) as Hkeys.
      destruct (resample_output_ok (as_trace items) d Ht) as (c2 & E2 & H1 & H2 & H3).
      destruct Hcalm as [Hcl Hhk]. rewrite Hhk. unfold apg_hook. eexists. eexists. split; [exact E2|]. split; [reflexivity|].
      intros r Er Eo. split; [rewrite Er; apply as_trace_wf|]. split; [intros a; rewrite Er, Hkeys; apply Hk|]. split.
      + exists c2. split; [exact Eo|]. split; [|split; [apply H2, Hw|split; [intros i Hi; apply H2, Hz, Hi|exact H1]]].
        exists f. split; [|exact Hnf]. rewrite H3; [exact Hf|]. rewrite Hkeys, Hk, posterior_In.
        intros [(i & _ & E)|[E|E]]; discriminate.
      + split; [|split; [exact Hcl|exact Hhk]]. intros i Hi. cbn [set_store store]. apply hook_tensor, Hst, Hi.
  Qed.

  (** *** one step of a sweep *)
  (** the stage before step [t] of sweep [S s'] *)
  Definition before (t s' : nat) : nat * nat := match t with O => (T_, s') | S t' => (t', S s') end.
  Lemma before_pos t s' : 0 < t -> before t s' = (t - 1, S s').
  Proof. destruct t; [lia|]. intros _. cbn [before]. f_equal. lia. Qed.
  Lemma before_keys t s' a : t <= T_ -> In a (posterior_addresses T_ (fst (before t s')) (snd (before t s'))) <->
    (exists i, i < T_ /\ a = z_where (Z.of_nat i) (if Nat.ltb i t then Z.of_nat (S s') else Z.of_nat s')) \/ a = z_what (Z.of_nat s') \/ a = "recon".
  Proof.
    intros Ht. rewrite posterior_In. unfold what_addr, current_where.
    assert (E : z_what (if Nat.eqb (fst (before t s')) T_ then Z.of_nat (snd (before t s')) else (Z.of_nat (snd (before t s')) - 1)%Z) = z_what (Z.of_nat s')).
    { f_equal. destruct t as [|t]; cbn [before fst snd]; [rewrite Nat.eqb_refl; reflexivity|]. destruct (Nat.eqb_spec t T_); lia. }
    rewrite E.
    assert (G : forall i, i < T_ -> z_where (Z.of_nat i) (if (Z.of_nat i <=? Z.of_nat (fst (before t s')))%Z then Z.of_nat (snd (before t s')) else (Z.of_nat (snd (before t s')) - 1)%Z)
       = z_where (Z.of_nat i) (if Nat.ltb i t then Z.of_nat (S s') else Z.of_nat s')).
    { intros i Hi. f_equal. destruct t as [|t]; cbn [before fst snd].
      - destruct (Z.leb_spec (Z.of_nat i) (Z.of_nat T_)); [reflexivity|lia].
      - destruct (Z.leb_spec (Z.of_nat i) (Z.of_nat t)), (Nat.ltb_spec i (S t)); lia. }
    split; (intros [(i & Hi & ->)|H]; [left; exists i; split; [exact Hi|]; rewrite G by exact Hi; reflexivity|auto]).
  Qed.

  Definition proposed (t s : nat) (o : out) : Prop := exists px, out_px o = Some px /\ supplied px /\
    (forall a, In a (dkeys (px_target_trace px)) <-> In a (posterior_addresses T_ t s) \/ a = replaced_address T_ t s).
  Definition stepped (t s : nat) (x : res out * st L) : Prop :=
    match fst x with Ok o => ready t s o (snd x) /\ proposed t s o | Err e => resampler_raises T_ rs e end.

  (** the forward encoder of a step, started after the previous stage *)
  Definition updated (t s : nat) : string := if Nat.eqb t T_ then z_what (Z.of_nat s) else z_where (Z.of_nat t) (Z.of_nat s).
  Lemma enc_fwd_step kws s1 t s' o1 : plain_call kws -> t <= T_ ->
    kwarg "ix" VNone kws = apg_ix L (Z.of_nat t) (Z.of_nat (S s')) "forward" ->
    ready (fst (before t s')) (snd (before t s')) o1 s1 ->
    always (run (if Nat.eqb t T_ then enc_digit L N else enc_coor L N) (out_output o1) kws s1) (fun x => exists o z nd, fst x = Ok o /\
      out_trace o = [(updated t (S s'), nd)] /\ moved s1 (snd x) (dset (updated t (S s')) (VTensor z) (store s1))).
  Proof.
    intros Hp Ht Hix (_ & _ & (d & -> & (f & Hf & Hnf) & Hw & Hz & _) & _). unfold updated. destruct (Nat.eqb_spec t T_) as [->|Hne].
    - rewrite (before_pos T_ s' Hpos) in Hz. cbn [fst snd] in Hz.
      eapply always_impl; [eapply (enc_digit_gen kws s1 d f (Z.of_nat (S s')) "forward" true); try eassumption; try reflexivity|].
      + intros i Hi. apply Hz. lia.
      + intros x (o & nd & dd & Ho & Htr & _ & Hm). exists o, (rv_value nd), nd. auto.
    - eapply always_impl; [eapply (enc_coor_fwd kws s1 d f t (Z.of_nat (S s'))); try eassumption; try lia|].
      + right. unfold what_addr in Hw. replace (Z.of_nat (S s') - 1)%Z with (Z.of_nat s') by lia.
        destruct t as [|t]; cbn [before fst snd] in Hw; [rewrite Nat.eqb_refl in Hw; exact Hw|].
        destruct (Nat.eqb_spec t T_); [lia|]. replace (Z.of_nat (S s') - 1)%Z with (Z.of_nat s') in Hw by lia. exact Hw.
      + intros x (o & z & nd & Ho & Htr & _ & Hm). exists o, z, nd. auto.
  Qed.
  Lemma enc_rev_step kws s1 t s' d ct : plain_call kws -> t <= T_ ->
    kwarg "ix" VNone kws = apg_ix L (Z.of_nat t) (Z.of_nat (S s')) "reverse" ->
    full_output t (S s') d -> get_cond (if Nat.eqb t T_ then 2 else 1) s1 = Some ct -> In (replaced_address T_ t (S s')) (dkeys ct) ->
    always (run (if Nat.eqb t T_ then enc_digit L N else enc_coor L N) (VDict d) kws s1) (fun x => exists o nd nd', fst x = Ok o /\
      out_trace o = [(replaced_address T_ t (S s'), nd)] /\ rv_prov nd = REUSED /\
      dget (replaced_address T_ t (S s')) ct = Some nd' /\ rv_value nd = rv_value nd' /\ moved s1 (snd x) (store s1)).
  Proof.
    intros Hp Ht Hix ((f & Hf & Hnf) & Hw & Hz & _) Hc Hin. unfold replaced_address, what_addr in *. destruct (Nat.eqb_spec t T_) as [->|Hne].
    - eapply always_impl; [eapply (enc_digit_gen kws s1 d f (Z.of_nat (S s')) "reverse" false); try eassumption; try reflexivity|].
      + intros i Hi. apply Hz. lia.
      + cbn zeta. intros x (o & nd & dd & Ho & Htr & (v & p & -> & Hv) & Hm). apply In_dkeys in Hin. destruct Hin as [nd' Hnd'].
        unfold looked_up in Hv. rewrite Hc, Hnd' in Hv. destruct Hv as [-> ->]. exists o. eexists. exists nd'. split; [exact Ho|]. split; [exact Htr|]. auto.
    - eapply (enc_coor_rev kws s1 d f t (Z.of_nat (S s')) ct); try eassumption. lia.
  Qed.

  Lemma detach_full t s d : full_output t s d -> exists d', detach_output (L := L) (VDict d) = VDict d' /\ full_output t s d'.
  Proof.
    intros ((f & Hf & Hnf) & Hw & Hz & Ha). eexists. split; [reflexivity|].
    assert (G : forall k (d : dict pyval) v, dget k d = Some v -> dget k (map (fun kv => (fst kv, detach_entry (snd kv))) d) = Some (detach_entry v)).
    { intros k. induction d0 as [|[k' v'] d0 IH]; cbn [dget map fst snd]; [discriminate|]. destruct (String.eqb k k'); [intros v [= <-]; reflexivity|apply IH]. }
    assert (G' : forall k, tensor_at (L := L) k d -> tensor_at (L := L) k (map (fun kv => (fst kv, detach_entry (snd kv))) d)).
    { intros k [x Hx]. exists (detach L x). rewrite (G _ _ _ Hx). reflexivity. }
    split; [exists (detach L f); split; [rewrite (G _ _ _ Hf); reflexivity|rewrite Hdet; exact Hnf]|].
    split; [apply G', Hw|]. split; [intros i Hi; apply G', Hz, Hi|].
    intros k v Hin. apply in_map_iff in Hin. destruct Hin as ([k' v'] & [= <- <-] & Hin). destruct (Ha _ _ Hin) as [x ->]. cbn. eauto.
  Qed.

  Lemma step_good q t s' kws s0 : t <= T_ -> plain_call kws -> calm s0 ->
    (forall kws, plain_call kws -> always (run q (VDict c0) kws s0) (good (fst (before t s')) (snd (before t s')))) ->
    always (run (gibbs_step L N wmean node_sum T_ (S s') t q) (VDict c0) kws s0) (stepped t (S s')).
  Proof.
    intros Ht Hp Hcalm Hq. unfold gibbs_step.
    set (id := 8 + T_ + 4 * (S s' * (T_ + 1) + t)).
    set (enc := if Nat.eqb t T_ then enc_digit L N else enc_coor L N).
    assert (Hoid : oid_of enc = if Nat.eqb t T_ then 2 else 1) by (unfold enc; destruct (Nat.eqb t T_); reflexivity).
    apply always_propose; [exact Hp|apply calm_wf, Hcalm|reflexivity|]. cbn [in_ix copts].
    set (kw1 := sub_kwargs _ kws). assert (Hp1 : plain_call kw1) by apply plain_sub, Hp.
    apply always_compose; [exact Hp1|]. cbn [in_ix copts].
    set (kwf := sub_kwargs _ kw1). assert (Hpf : plain_call kwf) by apply plain_sub, Hp1.
    assert (Hixf : kwarg "ix" VNone kwf = apg_ix L (Z.of_nat t) (Z.of_nat (S s')) "forward") by (apply sub_ix; reflexivity).
    eapply always_impl; [apply Hq, Hpf|]. intros [[o1|e] s1]; unfold good; cbn [fst snd]; [|auto].
    intros Hready. eapply always_impl; [apply enc_fwd_step; [exact Hpf|exact Ht|exact Hixf|exact Hready]|].
    intros [r2 s2] (o2 & z & nd2 & E2 & Htr2 & Hm2). cbn [fst snd] in E2, Hm2. subst r2. cbn [fst snd].
    destruct Hready as (Hwf1 & Hk1 & (d1 & Ed1 & _) & Hst1 & Hcalm1).
    assert (Hbk : forall a, In a (dkeys (out_trace o1)) <-> (exists i, i < T_ /\ a = z_where (Z.of_nat i) (if Nat.ltb i t then Z.of_nat (S s') else Z.of_nat s')) \/ a = z_what (Z.of_nat s') \/ a = "recon").
    { intros a. rewrite Hk1. apply before_keys, Ht. }
    assert (Hnew : ~ In (updated t (S s')) (dkeys (out_trace o1))).
    { rewrite Hbk. unfold updated. destruct (Nat.eqb_spec t T_) as [->|Hne].
      - intros [(i & _ & E)|[E|E]]; [discriminate| |discriminate]. apply z_what_inj in E. lia.
      - intros [(i & Hi & E)|[E|E]]; [|discriminate|discriminate]. apply z_where_inj in E. destruct E as [E1 E2].
        apply Nat2Z.inj in E1. subst i. destruct (Nat.ltb_spec t t); lia. }
    edestruct (compose_tail_ok (L := L)) as (qo & -> & Htq & _ & Htyq & Hsub); [reflexivity|exact Hwf1| | |].
    3:{ cbn [fst snd].
      specialize (Hsub eq_refl).
      assert (Hwq : wf_dict (out_trace qo)).
      { rewrite Htq, Htr2. apply (wf_app L [(updated t (S s'), nd2)]); [repeat constructor; intros []|exact Hwf1|]. intros k [<-|[]]. exact Hnew. }
      assert (Hkq : forall a, In a (dkeys (out_trace qo)) <-> a = updated t (S s') \/ In a (dkeys (out_trace o1))).
      { intros a. rewrite Htq, Htr2, dkeys_app. cbn [dkeys map fst app In]. split; (intros [E|H]; [left; symmetry; exact E|right; exact H]). }
      split; [exact Hwq|]. cbn [oid_of].
      assert (Hcalm2 : calm s2) by (eapply calm_moved; [exact Hcalm1|exact Hm2]).
      set (cs := set_cond (id + 1) (Some (out_trace qo)) s2).
      assert (Hwfcs : wf_st cs) by (apply wf_set_cond; [apply calm_wf, Hcalm2|intros tr [= <-]; exact Hwq]).
      apply always_extend; [exact Hp1|exact Hwfcs|]. cbn [in_ix copts]. rewrite Hoid. cbn [oid_of dec].
      assert (Hcc : get_cond (id + 1) cs = Some (out_trace qo)) by apply get_set_same. rewrite Hcc.
      set (kwr := sub_kwargs _ kw1). assert (Hpr : plain_call kwr) by apply plain_sub, Hp1.
      assert (Hixr : kwarg "ix" VNone kwr = apg_ix L (Z.of_nat t) (Z.of_nat (S s')) "reverse") by (apply sub_ix; reflexivity).
      set (eid := if Nat.eqb t T_ then 2 else 1).
      assert (Heid : eid <> 3 /\ eid < 3) by (unfold eid; destruct (Nat.eqb t T_); lia).
      assert (Hstore2 : forall i, i < Nat.min (t + 1) T_ -> tensor_at (L := L) (z_where (Z.of_nat i) (Z.of_nat (S s'))) (store s2)).
      { intros i Hi. destruct Hm2 as (_ & _ & ->). apply tensor_dset. unfold updated. destruct (Nat.eqb_spec t T_) as [->|Hne].
        - left. rewrite (before_pos T_ s' Hpos) in Hst1. cbn [fst snd] in Hst1. apply Hst1. lia.
        - destruct (Nat.eq_dec i t) as [->|Hit]; [right; reflexivity|left].
          destruct t as [|t']; [lia|]. cbn [before fst snd] in Hst1. apply Hst1. lia. }
      assert (Hsupply : forall a, In a (posterior_addresses T_ t (S s')) -> a <> "recon" -> In a (dkeys (out_trace qo))).
      { intros a Ha Hne. apply Hkq. apply posterior_In in Ha. unfold updated. destruct Ha as [(i & Hi & ->)|[->|E]]; [| |contradiction].
        - unfold current_where. destruct (Z.leb_spec (Z.of_nat i) (Z.of_nat t)) as [Hle|Hgt].
          + destruct (Nat.eqb_spec t T_) as [E|Hne'].
            * right. apply Hbk. left. exists i. split; [exact Hi|]. destruct (Nat.ltb_spec i t); [reflexivity|lia].
            * destruct (Nat.eq_dec i t) as [->|Hit]; [left; reflexivity|right]. apply Hbk. left. exists i. split; [exact Hi|].
              destruct (Nat.ltb_spec i t); [reflexivity|lia].
          + right. apply Hbk. left. exists i. split; [exact Hi|]. destruct (Nat.ltb_spec i t); [lia|]. f_equal. lia.
        - unfold what_addr. destruct (Nat.eqb_spec t T_) as [->|Hne']; [left; reflexivity|right]. apply Hbk. right. left. f_equal. lia. }
      eapply always_impl; [apply (dec_run kwr _ t (S s') "reverse" (out_trace qo) Hpr Hixr Ht); [left; lia| |exact Hsupply|exact Hstore2]|].
      { rewrite get_set_other by (intros E; apply (proj1 Heid); symmetry; exact E). apply get_set_same. }
      intros [r3 s3] (po & dpo & E3 & Hwp & Hkp & Hfrom & Htp & Eop & Hfull & _ & Hm3). cbn [fst snd] in E3, Hm3. subst r3. cbn [fst snd].
      rewrite Eop.
      assert (Hc3 : get_cond eid s3 = Some (out_trace qo)).
      { unfold get_cond. destruct Hm3 as (-> & _). fold (get_cond eid (set_cond eid (Some (out_trace qo)) (set_cond 3 (Some (out_trace qo)) cs))). apply get_set_same. }
      assert (Hrep : In (replaced_address T_ t (S s')) (dkeys (out_trace qo))).
      { apply Hkq. right. apply Hbk. unfold replaced_address. destruct (Nat.eqb_spec t T_).
        - right. left. f_equal. lia.
        - left. exists t. split; [lia|]. destruct (Nat.ltb_spec t t); [lia|]. f_equal. lia. }
      eapply always_impl; [apply (enc_rev_step kwr s3 t s' dpo (out_trace qo) Hpr Ht Hixr Hfull Hc3 Hrep)|].
      intros [r4 s4] (fo & ndf & ndf' & E4 & Htf & Hreu & Hndf & Hval & Hm4). cbn [fst snd] in E4, Hm4. subst r4. cbn [fst snd].
      set (s5 := set_cond 3 None (set_cond eid None s4)).
      assert (Hcs4 : conds s4 = conds (set_cond eid (Some (out_trace qo)) (set_cond 3 (Some (out_trace qo)) cs))).
      { destruct Hm4 as (-> & _). destruct Hm3 as (-> & _). reflexivity. }
      assert (Hget4 : forall j, get_cond j s4 = get_cond j (set_cond eid (Some (out_trace qo)) (set_cond 3 (Some (out_trace qo)) cs))).
      { intros j. unfold get_cond. rewrite Hcs4. reflexivity. }
      assert (Hc5 : get_cond (id + 1) s5 = Some (out_trace qo)).
      { unfold s5. rewrite !get_set_other by (unfold id; lia). rewrite Hget4, !get_set_other by (unfold id; lia). exact Hcc. }
      rewrite Hc5.
      assert (Hdisj : ~ In (replaced_address T_ t (S s')) (dkeys (out_trace po))).
      { rewrite Hkp, posterior_In. unfold replaced_address, what_addr, current_where. destruct (Nat.eqb_spec t T_) as [->|Hne'].
        - intros [(i & _ & E)|[E|E]]; [discriminate| |discriminate]. apply z_what_inj in E. lia.
        - intros [(i & Hi & E)|[E|E]]; [|discriminate|discriminate]. apply z_where_inj in E. destruct E as [E1 E2]. apply Nat2Z.inj in E1. subst i.
          rewrite Z.leb_refl in E2. lia. }
      edestruct (extend_tail_ok HL HT Hlj (copts L default_loss (apg_ix L (Z.of_nat t) (Z.of_nat (S s')) "reverse") false)) with (po := po) (fo := fo) as (eo & Eeo & Hte & Hme & Hlwe); [reflexivity|exact Hwp| | | |].
      4:{ rewrite Eeo. clear Eeo. 
        assert (Hwe : wf_dict (out_trace eo)).
        { rewrite Hte, Htf. apply wf_app; [exact Hwp|repeat constructor; intros []|]. intros k Hk [<-|[]]. exact (Hdisj Hk). }
        assert (Hmarg : marginalize (IExtend (id + 1) (dec L N) enc (copts L default_loss (apg_ix L (Z.of_nat t) (Z.of_nat (S s')) "reverse") false)) eo = Ok (VDict dpo, out_trace po)).
        { unfold marginalize. cbn [is_extend]. rewrite Hme. rewrite copytraces_filter by exact Hwe. cbn [rmap]. rewrite Eop. f_equal. f_equal.
          rewrite Hte. transitivity (filter (fun ar => mem (fst ar) (dkeys (out_trace po))) (out_trace po ++ out_trace fo)).
          - apply filter_ext_in. intros [k v] Hin. unfold keep. cbn [fst].
            assert (Hk : In k (dkeys (out_trace po ++ out_trace fo))) by (apply (in_map fst) in Hin; exact Hin).
            destruct (mem k (dkeys (out_trace po))) eqn:Em.
            + assert (E : mem k (sdiff (dkeys (out_trace po ++ out_trace fo)) (dkeys (out_trace po))) = false).
              { apply mem_not_In. rewrite In_sdiff. apply mem_In in Em. tauto. }
              rewrite E. reflexivity.
            + assert (E : mem k (sdiff (dkeys (out_trace po ++ out_trace fo)) (dkeys (out_trace po))) = true).
              { apply mem_In. rewrite In_sdiff. apply mem_not_In in Em. tauto. }
              rewrite E. reflexivity.
          - apply filter_keys_app. rewrite Htf. intros k Hk [<-|[]]. exact (Hdisj Hk). }
        edestruct (propose_tail_ok HL HT Hlj) with (qo := qo) (po := eo) as (r & px & Er & Hr1 & Hr2 & _ & Hr4 & Hr5 & Hr6 & Hr7);
          [exact Hwq|exact Hwe|apply Hlwe, Htp| |exact Hmarg| |].
        3:{ rewrite Er. unfold stepped. cbn [fst snd].
          destruct (detach_full _ _ _ Hfull) as (dd & Edd & Hdd).
          split.
          - split; [rewrite Hr1; exact Hwp|]. split; [intros a; rewrite Hr1, Hkp; reflexivity|].
            split; [exists dd; split; [rewrite Hr2; exact Edd|exact Hdd]|]. split.
            + intros i Hi. unfold s5. cbn [set_cond store]. destruct Hm4 as (_ & _ & ->). destruct Hm3 as (_ & _ & ->). cbn [set_cond store]. apply Hstore2, Hi.
            + split.
              * intros j. destruct (Nat.eq_dec j (id + 1)) as [->|Hj1]; [apply get_set_same|]. rewrite get_set_other by exact Hj1.
                unfold s5. destruct (Nat.eq_dec j 3) as [->|Hj2]; [apply get_set_same|]. rewrite get_set_other by exact Hj2.
                destruct (Nat.eq_dec j eid) as [->|Hj3]; [apply get_set_same|]. rewrite get_set_other by exact Hj3.
                rewrite Hget4, !get_set_other by assumption. unfold cs. rewrite get_set_other by exact Hj1. apply Hcalm2.
              * unfold s5. cbn [set_cond hook]. destruct Hm4 as (_ & -> & _). destruct Hm3 as (_ & -> & _). cbn [set_cond hook]. apply Hcalm2.
          - exists px. split; [exact Hr4|]. rewrite <- Hr6 in Hte. unfold supplied. rewrite Hte, Hr5. split.
            + intros a nd Ha. rewrite dget_app in Ha. destruct (dget a (out_trace po)) as [ndp|] eqn:Ep.
              * injection Ha as <-. apply Hfrom, Ep.
              * rewrite Htf in Ha. cbn [dget] in Ha. destruct (String.eqb_spec a (replaced_address T_ t (S s'))) as [->|]; [|discriminate].
                injection Ha as <-. right. split; [exact Hreu|]. exists ndf'. auto.
            + intros a. rewrite dkeys_app, in_app_iff, Hkp, Htf. cbn [dkeys map fst In]. split; [intros [H|[E|[]]]|intros [H|E]]; auto. }
        - unfold forward_trace. cbn [debug_attr in_debug copts rbind]. rewrite Htyq, Hsub. reflexivity.
        - intros r l0 (px & Epx & Etg & Efw). cbn [in_loss copts]. unfold loss_apg. rewrite Epx, Efw, Etg.
          assert (Erec : In "recon" (dkeys (out_trace eo))).
          { rewrite Hte, dkeys_app. apply in_or_app. left. rewrite Hkp. apply posterior_In. auto. }
          rewrite (proj2 (dmem_In _ _) Erec). cbn [rbind]. apply In_dkeys in Erec. destruct Erec as [ndr Hndr]. rewrite Hndr.
          match goal with |- context [log_joint ?a ?b ?r ?n ?t] => destruct (log_joint_ok HL Hlj a b r n t) as [lw Elw]; rewrite Elw end.
          cbn [rbind]. eexists. reflexivity. }
      - rewrite Htf. repeat constructor; intros [].
      - rewrite Htf. intros k [<-|[]]. exact Hdisj.
      - rewrite Htf. intros k nd [[= <- <-]|[]]. exact Hreu. }
    - rewrite Htr2. repeat constructor; intros [].
    - rewrite Htr2. intros k [<-|[]]. exact Hnew.
  Qed.

  (** *** importance sampling: the first stage *)
  Lemma composes_good n : n <= T_ -> forall kws s0, plain_call kws -> calm s0 ->
    always (run (is_composes L N n) (VDict c0) kws s0) (fun x => exists o d, fst x = Ok o /\ wf_dict (out_trace o) /\
      (forall a, In a (dkeys (out_trace o)) <-> exists i, i < n /\ a = z_where (Z.of_nat i) 0) /\
      out_output o = VDict d /\ dget "frames" d = Some (VTensor fr) /\
      (forall i, i < n -> tensor_at (L := L) (z_where (Z.of_nat i) 0) d) /\
      (forall i, i < n -> tensor_at (L := L) (z_where (Z.of_nat i) 0) (store (snd x))) /\ calm (snd x)).
  Proof.
    induction n as [|n IH]; intros Hn kws s0 Hp Hcalm; cbn [is_composes].
    - unfold noop. apply (always_prog HL HT Hlj); [exact Hp|reflexivity|]. cbn [noop_model exec]. apply always_leaf. cbn [fst snd].
      intros lw _. eexists. exists c0. split; [reflexivity|]. cbn [out_trace out_output]. split; [constructor|].
      split; [intros a; split; [intros []|intros (i & Hi & _); lia]|]. repeat split; try exact Hc0; try (intros i Hi; lia); apply Hcalm.
    - apply always_compose; [exact Hp|]. cbn [in_ix copts]. set (kw1 := sub_kwargs _ kws). assert (Hp1 : plain_call kw1) by apply plain_sub, Hp.
      eapply always_impl; [apply (IH ltac:(lia) kw1 s0 Hp1 Hcalm)|].
      intros [r1 s1] (o1 & d1 & E1 & Hwf1 & Hk1 & Ed1 & Hf1 & Hd1 & Hs1 & Hc1). cbn [fst snd] in E1, Hs1, Hc1. subst r1. cbn [fst snd]. rewrite Ed1.
      eapply always_impl; [eapply (enc_coor_fwd kw1 s1 d1 fr n 0); try eassumption; [apply sub_ix; reflexivity|left; reflexivity]|].
      intros [r2 s2] (o2 & z & nd & E2 & Htr & Eo & Hm). cbn [fst snd] in E2, Hm. subst r2. cbn [fst snd].
      assert (Hnew : ~ In (z_where (Z.of_nat n) 0) (dkeys (out_trace o1))).
      { rewrite Hk1. intros (i & Hi & E). apply z_where_inj in E. lia. }
      destruct (compose_tail_ok (copts L default_loss (apg_ix L (Z.of_nat n) 0 "forward") false) kws o1 o2) as (r & -> & Htq & Hoq & _ & _);
        [reflexivity|exact Hwf1|rewrite Htr; repeat constructor; intros []|rewrite Htr; intros k [<-|[]]; exact Hnew|].
      exists r. eexists. split; [reflexivity|]. rewrite Htq, Htr. split.
      { apply (wf_app L [(_, nd)]); [repeat constructor; intros []|exact Hwf1|]. intros k [<-|[]]. exact Hnew. }
      split.
      { intros a. rewrite dkeys_app, in_app_iff, Hk1. cbn [dkeys map fst In]. split.
        - intros [[<-|[]]|(i & Hi & ->)]; [exists n|exists i]; split; try lia; reflexivity.
        - intros (i & Hi & ->). destruct (Nat.eq_dec i n) as [->|Hin]; [left; left; reflexivity|right; exists i; split; [lia|reflexivity]]. }
      split; [rewrite Hoq; exact Eo|]. cbn [Z.eqb].
      split; [rewrite dget_dset; exact Hf1|].
      assert (Hi' : forall i, i < S n -> i < n \/ i = n) by (intros; lia).
      split; [intros i Hi; apply tensor_dset; destruct (Hi' i Hi) as [H| ->]; [left; apply Hd1, H|right; reflexivity]|].
      split; [|eapply calm_moved; eassumption].
      intros i Hi. cbn [snd]. destruct Hm as (_ & _ & ->). apply tensor_dset. destruct (Hi' i Hi) as [H| ->]; [left; apply Hs1, H|right; reflexivity].
  Qed.

  Definition first_proposed (o : out) : Prop := exists px, out_px o = Some px /\ supplied px /\
    (forall a, In a (dkeys (px_target_trace px)) <-> In a (posterior_addresses T_ T_ 0)).
  Lemma initial_good kws s0 : plain_call kws -> calm s0 ->
    always (run (initial_is L N wmean T_) (VDict c0) kws s0) (fun x => exists o, fst x = Ok o /\ ready T_ 0 o (snd x) /\ first_proposed o).
  Proof.
    intros Hp Hcalm. unfold initial_is. apply always_propose; [exact Hp|apply calm_wf, Hcalm|reflexivity|]. cbn [in_ix copts].
    set (kw1 := sub_kwargs _ kws). assert (Hp1 : plain_call kw1) by apply plain_sub, Hp.
    apply always_compose; [exact Hp1|]. cbn [in_ix copts]. set (kw2 := sub_kwargs _ kw1). assert (Hp2 : plain_call kw2) by apply plain_sub, Hp1.
    eapply always_impl; [apply (composes_good T_ ltac:(lia) kw2 s0 Hp2 Hcalm)|].
    intros [r1 s1] (o1 & d1 & E1 & Hwf1 & Hk1 & Ed1 & Hf1 & Hd1 & Hs1 & Hc1). cbn [fst snd] in E1, Hs1, Hc1. subst r1. cbn [fst snd]. rewrite Ed1.
    eapply always_impl; [eapply (enc_digit_gen kw2 s1 d1 fr 0 "forward" true Hp2); try eassumption; [apply sub_ix; reflexivity|reflexivity]|].
    cbn zeta. intros [r2 s2] (o2 & nd & dd & E2 & Htr & _ & Hm). cbn [fst snd] in E2, Hm. subst r2. cbn [fst snd].
    assert (Hnew : ~ In (z_what 0) (dkeys (out_trace o1))).
    { rewrite Hk1. intros (i & _ & E). discriminate. }
    destruct (compose_tail_ok (copts L default_loss (apg_ix L (Z.of_nat T_) 0 "forward") false) kw1 o1 o2) as (qo & -> & Htq & _ & _ & _);
      [reflexivity|exact Hwf1|rewrite Htr; repeat constructor; intros []|rewrite Htr; intros k [<-|[]]; exact Hnew|].
    assert (Hwq : wf_dict (out_trace qo)).
    { rewrite Htq, Htr. apply (wf_app L [(_, nd)]); [repeat constructor; intros []|exact Hwf1|]. intros k [<-|[]]. exact Hnew. }
    split; [exact Hwq|]. cbn [oid_of dec].
    assert (Hcalm2 : calm s2) by (eapply calm_moved; eassumption).
    assert (Hstore : forall i, i < Nat.min (T_ + 1) T_ -> tensor_at (L := L) (z_where (Z.of_nat i) (Z.of_nat 0)) (store s2)).
    { intros i Hi. destruct Hm as (_ & _ & ->). apply tensor_dset. left. apply Hs1. lia. }
    fold kw1.
    eapply always_impl; [eapply (dec_run kw1 _ T_ 0 "forward" (out_trace qo) Hp1); [apply sub_ix; reflexivity|lia|right; reflexivity|apply get_set_same| |exact Hstore]|].
    { intros a Ha Hne. rewrite Htq, Htr, dkeys_app. apply posterior_In in Ha. cbn [dkeys map fst app In]. destruct Ha as [(i & Hi & ->)|[->|E]]; [| |contradiction].
      - right. apply Hk1. exists i. split; [exact Hi|]. unfold current_where. destruct (Z.leb_spec (Z.of_nat i) (Z.of_nat T_)); [reflexivity|lia].
      - left. unfold what_addr. rewrite Nat.eqb_refl. reflexivity. }
    intros [r3 s3] (po & dpo & E3 & Hwp & Hkp & Hfrom & Htp & Eop & Hfull & _ & Hm3). cbn [fst snd] in E3, Hm3. subst r3. cbn [fst snd].
    edestruct (propose_tail_ok HL HT Hlj (copts L (loss_is L wmean) (apg_ix L (Z.of_nat T_) 0 "forward") false) (dec L N)) with (qo := qo) (po := po)
      as (r & px & Er & Hr1 & Hr2 & _ & Hr4 & Hr5 & Hr6 & Hr7); [exact Hwq|exact Hwp|exact Htp| |unfold marginalize; cbn [is_extend dec]; reflexivity| |].
    3:{ rewrite Er. exists r. split; [reflexivity|]. cbn [snd]. split.
      - split; [rewrite Hr1; exact Hwp|]. split; [intros a; rewrite Hr1, Hkp; reflexivity|]. split.
        + destruct (detach_full _ _ _ Hfull) as (dd' & Edd & Hdd). exists dd'. split; [rewrite Hr2, Eop; exact Edd|exact Hdd].
        + split; [intros i Hi; cbn [set_cond store]; destruct Hm3 as (_ & _ & ->); cbn [set_cond store]; apply Hstore, Hi|].
          split; [|cbn [set_cond hook]; destruct Hm3 as (_ & -> & _); apply Hcalm2].
          intros j. destruct (Nat.eq_dec j 3) as [->|Hj]; [apply get_set_same|]. rewrite get_set_other by exact Hj.
          unfold get_cond. destruct Hm3 as (-> & _). change (get_cond j (set_cond 3 (Some (out_trace qo)) s2) = None). rewrite get_set_other by exact Hj. apply Hcalm2.
      - exists px. split; [exact Hr4|]. unfold supplied. rewrite Hr5, Hr6. split; [exact Hfrom|]. intros a. rewrite Hkp. reflexivity. }
    - unfold forward_trace. cbn [debug_attr in_debug copts rbind]. reflexivity.
    - intros r l0 (px & Epx & Etg & Efw). cbn [in_loss copts]. unfold loss_is. rewrite Epx.
      do 2 (match goal with |- context [log_joint ?a ?b ?r ?n ?t] => destruct (log_joint_ok HL Hlj a b r n t) as [? Elw]; rewrite Elw; clear Elw end; cbn [rbind]).
      eexists. reflexivity.
  Qed.

  (** *** all the sweeps *)
  Definition finished (s : nat) (x : res out * st L) : Prop :=
    match fst x with
    | Ok o => ready T_ s o (snd x) /\ match s with O => first_proposed o | S _ => proposed T_ s o end
    | Err e => resampler_raises T_ rs e end.
  Lemma good_of_stepped t s x : stepped t s x -> good t s x.
  Proof. unfold stepped, good. destruct (fst x); [intros [H _]; exact H|auto]. Qed.
  Lemma good_of_finished s x : finished s x -> good T_ s x.
  Proof. unfold finished, good. destruct (fst x); [intros [H _]; exact H|auto]. Qed.

  Lemma steps_good s' q : (forall kws s0, plain_call kws -> calm s0 -> always (run q (VDict c0) kws s0) (good T_ s')) ->
    forall n, n <= T_ -> forall kws s0, plain_call kws -> calm s0 ->
    always (run (sweep_steps L N wmean node_sum rs T_ (S s') n q) (VDict c0) kws s0) (good (fst (before n s')) (snd (before n s'))).
  Proof.
    intros Hq. induction n as [|n IH]; intros Hn kws s0 Hp Hcalm; cbn [sweep_steps]; [apply Hq; assumption|].
    cbn [before fst snd]. apply resample_good; [exact Hp|]. eapply always_impl; [|apply good_of_stepped].
    apply step_good; [lia|apply plain_sub, Hp|exact Hcalm|]. intros kws' Hp'. apply IH; [lia|assumption..].
  Qed.
  Lemma sweeps_good S_ : forall n, n <= S_ -> forall kws s0, plain_call kws -> calm s0 ->
    always (run (sweeps L N wmean node_sum rs T_ S_ n) (VDict c0) kws s0) (if Nat.eqb n S_ then finished n else good T_ n).
  Proof.
    induction n as [|n IH]; intros Hn kws s0 Hp Hcalm; cbn [sweeps].
    - assert (Hf : forall kws, plain_call kws -> always (run (initial_is L N wmean T_) (VDict c0) kws s0) (finished 0)).
      { intros kws' Hp'. eapply always_impl; [apply (initial_good kws' s0 Hp' Hcalm)|]. intros [r s] (o & E & H1 & H2). unfold finished. rewrite E. auto. }
      destruct (Nat.ltb_spec 0 S_) as [Hlt|Hge]; destruct (Nat.eqb_spec 0 S_); try lia.
      + apply resample_good; [exact Hp|]. eapply always_impl; [apply Hf, plain_sub, Hp|apply good_of_finished].
      + apply Hf, Hp.
    - assert (Hf : forall kws, plain_call kws -> always (run (gibbs_step L N wmean node_sum T_ (S n) T_ (sweep_steps L N wmean node_sum rs T_ (S n) T_ (sweeps L N wmean node_sum rs T_ S_ n))) (VDict c0) kws s0) (finished (S n))).
      { intros kws' Hp'. unfold finished. apply step_good; [lia|exact Hp'|exact Hcalm|]. intros kws2 Hp2. apply steps_good; [|lia|exact Hp2|exact Hcalm].
        intros kws3 s3 Hp3 Hcalm3. specialize (IH ltac:(lia) kws3 s3 Hp3 Hcalm3). destruct (Nat.eqb_spec n S_); [lia|exact IH]. }
      destruct (Nat.eqb (S n) S_); [exact (Hf kws Hp)|].
      apply resample_good; [exact Hp|]. eapply always_impl; [apply Hf, plain_sub, Hp|apply good_of_finished].
  Qed.
  Lemma gibbs_good num_sweeps kws s0 : plain_call kws -> calm s0 ->
    always (run (gibbs_sweeps L N wmean node_sum rs num_sweeps T_) (VDict c0) kws s0) (finished num_sweeps).
  Proof.
    intros Hp Hc. pose proof (sweeps_good num_sweeps num_sweeps (le_n _) kws s0 Hp Hc) as H. rewrite Nat.eqb_refl in H. exact H.
  Qed.
End GibbsRun.
