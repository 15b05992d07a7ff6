(** C52: the decoder's prior over positions. *)
From Verif Require Import SpecGibbs Thm_Gibbs Prop_Gibbs.
Open Scope nat_scope.

Lemma nth_app_dget {L} (nodes rest : trace L) t kv : wf_dict nodes -> nth_error nodes t = Some kv ->
  dget (fst kv) (nodes ++ rest) = Some (snd kv).
Proof.
  intros Hwf H. apply nth_error_In in H. destruct kv as [k v]. apply In_dget in H; [|exact Hwf].
  rewrite dget_app. cbn [fst snd]. rewrite H. reflexivity.
Qed.

Section C52.
  Context {L : lib} (N : nets L).
  Notation tensors := (T L).
  (** what the decoder does at every time, for every step, sweep and store *)
  Lemma decoder_node c kws s o s' fr ix_t sweep dir (t : nat) :
    wf_dict kws -> item L c "frames" = Ok fr -> kwarg "ix" VNone kws = apg_ix L ix_t sweep dir ->
    returns (run (dec L N) c kws) s o s' -> t < n_frames L N fr ->
    exists nd, dget (current_where ix_t sweep t) (out_trace o) = Some nd /\
      match snd (where_site ix_t sweep t) with
      | None => rv_den nd = Proper (prior_where0 L N)
      | Some key => exists loc, dget key (store s) = Some (VTensor loc) /\ rv_den nd = Proper (prior_wheret L N loc)
      end.
  Proof.
    intros Hk Hfr Hix H Ht. destruct (dec_returns N c kws s o s' fr ix_t sweep dir Hk Hfr Hix H) as (nodes & zi & ndw & ndr & HF & _ & Htr).
    assert (Hwf : wf_dict nodes). { unfold wf_dict. rewrite (site_nodes_keys _ _ _ _ _ HF). apply where_names_NoDup. }
    destruct (Forall2_nth_seq _ _ _ _ HF t Ht) as (kv & Hkv & Hn & Hd).
    exists (snd kv). split.
    - rewrite Htr. replace (current_where ix_t sweep t) with (fst kv); [eapply nth_app_dget; eassumption|].
      rewrite Hn. apply where_site_name.
    - destruct (snd (where_site ix_t sweep t)) as [key|].
      + destruct Hd as (loc & Hl & v & p & -> & _). exists loc. auto.
      + destruct Hd as (v & p & -> & _). reflexivity.
  Qed.

  (** C52, for the times up to the one after the current step (all times in the initial importance
      sampling, in the digit step and with at most two frames): the position at time 0 has the
      initial prior, and the position at time [t > 0] has the prior centred at the current position of
      time [t - 1].  Missing from the full property: later times, for which it is false
      (C52_prior_chain_refuted). *)
  Theorem C52_prior_chain_partial c kws s o s' fr ix_t sweep dir (t : nat) :
    wf_dict kws -> item L c "frames" = Ok fr -> kwarg "ix" VNone kws = apg_ix L ix_t sweep dir -> (0 <= ix_t)%Z ->
    returns (run (dec L N) c kws) s o s' -> t < n_frames L N fr -> (Z.of_nat t <= ix_t + 1)%Z ->
    exists nd, dget (current_where ix_t sweep t) (out_trace o) = Some nd /\
      match t with
      | O => rv_den nd = Proper (prior_where0 L N)
      | S t' => exists loc, dget (current_where ix_t sweep t') (store s) = Some (VTensor loc) /\
                            rv_den nd = Proper (prior_wheret L N loc)
      end.
  Proof.
    intros Hk Hfr Hix Hpos H Ht Hle. destruct (decoder_node c kws s o s' fr ix_t sweep dir t Hk Hfr Hix H Ht) as (nd & Hnd & Hd).
    exists nd. split; [exact Hnd|]. unfold where_site in Hd. destruct t as [|t'].
    - destruct (Z.leb_spec (Z.of_nat 0) ix_t); [|lia]. exact Hd.
    - unfold current_where. destruct (Z.leb_spec (Z.of_nat t') ix_t); [|lia].
      destruct (Z.leb_spec (Z.of_nat (S t')) ix_t).
      + destruct (Z.eqb_spec (Z.of_nat (S t')) 0); [lia|]. cbn [snd] in Hd.
        replace (Z.of_nat (S t') - 1)%Z with (Z.of_nat t') in Hd by lia. exact Hd.
      + destruct (Z.eqb_spec (Z.of_nat (S t')) (ix_t + 1)); [|lia]. cbn [snd] in Hd.
        replace ix_t with (Z.of_nat t') in Hd at 1 by lia.
        replace (z_where (Z.of_nat t') sweep) with (z_where ix_t sweep) by (f_equal; lia). 
        replace (z_where (Z.of_nat t') sweep) with (z_where ix_t sweep) in Hd by (f_equal; lia). exact Hd.
  Qed.

  (** ... and what it does at the later times: all of them are centred at the position of the step. *)
  Theorem C52_later_times c kws s o s' fr ix_t sweep dir (t : nat) :
    wf_dict kws -> item L c "frames" = Ok fr -> kwarg "ix" VNone kws = apg_ix L ix_t sweep dir ->
    returns (run (dec L N) c kws) s o s' -> t < n_frames L N fr -> (ix_t + 1 < Z.of_nat t)%Z ->
    exists nd loc, dget (current_where ix_t sweep t) (out_trace o) = Some nd /\
      dget (z_where ix_t sweep) (store s) = Some (VTensor loc) /\ rv_den nd = Proper (prior_wheret L N loc).
  Proof.
    intros Hk Hfr Hix H Ht Hle. destruct (decoder_node c kws s o s' fr ix_t sweep dir t Hk Hfr Hix H Ht) as (nd & Hnd & Hd).
    exists nd. unfold where_site in Hd. destruct (Z.leb_spec (Z.of_nat t) ix_t); [lia|].
    destruct (Z.eqb_spec (Z.of_nat t) (ix_t + 1)); [lia|]. cbn [snd] in Hd. destruct Hd as (loc & Hl & Hd). exists loc. auto.
  Qed.
End C52.
Print Assumptions C52_prior_chain_partial.
Print Assumptions C52_later_times.

(** C52 as stated is false with three frames: in step 0 of sweep 1 the prior of the position at time 2
    is centred at the position of time 0, not at the current position of time 1. *)
Definition dec_kws : dict (pyval ZT) := [("ix", apg_ix ZL 0 1 "forward")].
Definition dec_st : st ZL := mkSt (L := ZL) []
  [("z_where_0_1", VTensor (zten 10)); ("z_where_1_0", VTensor (zten 20)); ("z_where_2_0", VTensor (zten 30))] (fun d _ _ => Ok d) [].
Definition dec_c : pyval ZT := VDict [("frames", VTensor (zten 3))].
Theorem C52_prior_chain_refuted :
  exists o s' nd, returns (run (dec ZL nets_ex) dec_c dec_kws) dec_st o s' /\
    dget (current_where 0 1 2) (out_trace o) = Some nd /\
    dget (current_where 0 1 1) (store dec_st) = Some (VTensor (zten 20)) /\
    dget (current_where 0 1 0) (store dec_st) = Some (VTensor (zten 10)) /\
    prior_wheret ZL nets_ex (zten 20) <> prior_wheret ZL nets_ex (zten 10) /\
    rv_den nd = Proper (prior_wheret ZL nets_ex (zten 10)).
Proof.
  destruct (seen_by (L := ZL) (run (dec ZL nets_ex) dec_c dec_kws) dec_st [zten 1; zten 2; zten 3; zten 4]
    (fun o _ => dget (current_where 0 1 2) (out_trace o)) _ eq_refl) as (o & s' & H & Hn).
  eexists o, s', _. split; [exact H|]. split; [exact Hn|]. repeat split; try reflexivity. discriminate.
Qed.
Print Assumptions C52_prior_chain_refuted.
(** the hypotheses of the two theorems above hold of that run, at the times 0, 1 and 2 *)
Example C52_case : exists o s', returns (run (dec ZL nets_ex) dec_c dec_kws) dec_st o s' /\
  wf_dict dec_kws /\ item ZL dec_c "frames" = Ok (zten 3) /\ kwarg (L := ZL) "ix" VNone dec_kws = apg_ix ZL 0 1 "forward" /\
  n_frames ZL nets_ex (zten 3) = 3.
Proof.
  destruct C52_prior_chain_refuted as (o & s' & nd & H & _). exists o, s'. split; [exact H|].
  split; [|auto]. repeat constructor; cbn; tauto.
Qed.
