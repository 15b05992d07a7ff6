(** C72: the weights of the Gibbs experiment. *)
From Verif Require Import SpecGibbsWeight Prop_Gibbs Prop_Sweeps Thm_GibbsRun Thm_GibbsWeight Thm_Systematic Prop_Decoder.
Close Scope R_scope.
Open Scope nat_scope.

(** Step [t] of sweep [S s] ([t = T_]: the digits), applied to the program [q] built up to there, which
    returned [prev].  With [v] the values of the proposal (the old sample [prev] and the new value):
    the log-weight grows by
      log-joint of the current sample + log-density of the replaced value under the encoder
      - log-density of the new value under the encoder - the log-densities recorded in [prev],
    each summed over all but the sample and batch dimensions; the new trace records the current sample
    and the terms of its log-joint, to which the next step will refer.  The attribute [lw] of the
    result is the log-weight before the step. *)
Theorem C72_step_weight : forall (L : lib) (N : nets L) same wmean node_sum rs T_ c kws st num_sweeps s t fr,
  gibbs_run N same rs T_ c kws st -> dget "frames" c = Some (VTensor fr) -> n_frames L N fr = T_ ->
  (forall x, same x x = true) -> keeps_observed rs -> s < num_sweeps -> t <= T_ ->
  let q := sweep_steps L N wmean node_sum rs T_ (S s) t (sweeps L N wmean node_sum rs T_ num_sweeps s) in
  forall o st', returns (run (gibbs_step L N wmean node_sum T_ (S s) t q) (VDict c) kws) st o st' ->
  exists kwq prev st1, returns (run q (VDict c) kwq) st prev st1 /\
    kwarg "sample_dims" VNone kwq = kwarg "sample_dims" VNone kws /\ kwarg "batch_dim" VNone kwq = kwarg "batch_dim" VNone kws /\
  exists px F, out_px o = Some px /\
    let v := value_at (px_proposal_trace px) in
    let total l := tsum (map (bsum L (kwarg "sample_dims" VNone kws) (kwarg "batch_dim" VNone kws)) l) in
    forward_logp N T_ fr v t (S s) F /\
    out_lw o = detach L (tadd L (out_lw prev) (tsub L
      (total (joint_logp N T_ fr v t (S s) ++ [reverse_logp N T_ fr v t (S s)]))
      (total (F :: map (density_at (out_trace prev)) (previous_addresses T_ t s))))) /\
    map (density_at (out_trace o)) (posterior_addresses T_ t (S s)) = joint_logp N T_ fr v t (S s) /\
    (forall a, In a (posterior_addresses T_ t (S s)) -> a <> "recon" -> value_at (out_trace o) a = v a) /\
    (forall a, In a (previous_addresses T_ t s) -> value_at (out_trace prev) a = v a) /\
    px_lw px = (if is_tensor L (out_lw prev) then detach L (out_lw prev) else to_tensor L (out_lw prev)).
Proof.
  intros L N same wmean node_sum rs T_ c kws st n s t fr [H1 H2 H3 H4 H5 _ H6 H7 H8 H9] Hf Hn Hsame Hobs Hs Ht q o st' H.
  destruct (step_weighed H1 H2 H3 N same wmean node_sum rs H4 H5 T_ H6 c fr Hf Hn Hsame Hobs n s t kws st o st' Hs Ht H7 (conj H8 H9) H)
    as (_ & kwq & prev & st1 & _ & E1 & E2 & Hq & Hw).
  exists kwq, prev, st1. split; [exact Hq|]. split; [exact E1|]. split; [exact E2|].
  destruct Hw as (px & F & G1 & G2 & G3 & G4 & G5 & G6 & G7 & _). exists px, F. cbn zeta. do 6 (split; [assumption|]). exact G7.
Qed.
Print Assumptions C72_step_weight.

(** The importance sampling the sweeps start from: log-joint minus the log-densities of the encoders. *)
Theorem C72_initial_weight : forall (L : lib) (N : nets L) same wmean rs T_ c kws st fr,
  gibbs_run N same rs T_ c kws st -> dget "frames" c = Some (VTensor fr) -> n_frames L N fr = T_ ->
  forall o st', returns (run (initial_is L N wmean T_) (VDict c) kws) st o st' ->
  exists px l, out_px o = Some px /\
    let v := value_at (px_proposal_trace px) in
    let total l := tsum (map (bsum L (kwarg "sample_dims" VNone kws) (kwarg "batch_dim" VNone kws)) l) in
    initial_logp N T_ fr v l /\
    out_lw o = detach L (tsub L (total (joint_logp N T_ fr v T_ 0)) (total l)) /\
    map (density_at (out_trace o)) (posterior_addresses T_ T_ 0) = joint_logp N T_ fr v T_ 0 /\
    (forall a, In a (posterior_addresses T_ T_ 0) -> a <> "recon" -> value_at (out_trace o) a = v a).
Proof.
  intros L N same wmean rs T_ c kws st fr [H1 H2 H3 H4 H5 _ H6 H7 H8 H9] Hf Hn o st' H.
  destruct (proj2 (initial_synced H1 N same wmean (fun x => x) T_ H6 c fr Hf Hn kws st o st' H7 (conj H8 H9) H)) as (px & l & G1 & G2 & G3 & G4 & G5 & _).
  exists px, l. cbn zeta. do 4 (split; [assumption|]). exact G5.
Qed.
Print Assumptions C72_initial_weight.

(** The frames dictionary the programs share and the dictionary a run returns hold the values of the
    returned trace, whatever was resampled on the way. *)
Theorem C72_in_step : forall (L : lib) (N : nets L) same wmean node_sum rs T_ c kws st num_sweeps n,
  gibbs_run N same rs T_ c kws st -> (forall x, same x x = true) -> keeps_observed rs -> n <= num_sweeps ->
  forall o st', returns (run (sweeps L N wmean node_sum rs T_ num_sweeps n) (VDict c) kws) st o st' ->
  (forall i, i < T_ -> let a := z_where (Z.of_nat i) (Z.of_nat n) in
    dmem a (out_trace o) = true /\ dget a (store st') = Some (VTensor (value_at (out_trace o) a))) /\
  exists d, out_output o = VDict d /\
    forall a, a = z_what (Z.of_nat n) \/ (exists i, i < T_ /\ a = z_where (Z.of_nat i) (Z.of_nat n)) ->
      exists x, dget a d = Some (VTensor x) /\ same_tensor (value_at (out_trace o) a) x.
Proof.
  intros L N same wmean node_sum rs T_ c kws st S_ n [H1 H2 H3 H4 H5 (fr & Hf & Hn) H6 H7 H8 H9] Hsame Hobs Hle o st' H.
  destruct (sweeps_synced H1 H2 H3 N same wmean node_sum rs H4 H5 T_ H6 c fr Hf Hn Hsame Hobs S_ n Hle kws st o st' H7 (conj H8 H9) H)
    as (Hst & (d & Ed & _ & Hd) & _).
  split.
  - intros i Hi a. destruct (Hst i ltac:(lia)) as (nd & Hnd & Hs). fold a in Hnd, Hs. unfold dmem, value_at. rewrite Hnd. auto.
  - exists d. split; [exact Ed|]. intros a Ha. destruct (Hd a) as (x & nd & Hx & Hnd & Hsm).
    { destruct Ha as [->|(i & Hi & ->)]; [left|right; exists i; split; [lia|reflexivity]]. unfold SpecGibbsWeight.digits_at. rewrite Nat.eqb_refl. reflexivity. }
    exists x. split; [exact Hx|]. unfold value_at. rewrite Hnd. exact Hsm.
Qed.
Print Assumptions C72_in_step.

(** The resampler of the experiment leaves observations observed. *)
Theorem C72_systematic : forall (L : lib) (W : array_view L) nrm, keeps_observed (systematic W nrm).
Proof.
  intros L W nrm tr lw kws items lw2 Hwf Ho a r r' Hr Hr'. apply outcome_path in Ho. destruct Ho as [ds Hp]. cbn [rs_call systematic] in Hp.
  assert (E : exists sd bd, systematic_call W nrm tr lw kws = systematic_call W nrm tr lw [("sample_dims", sd); ("batch_dim", bd)]).
  { unfold systematic_call in *. destruct (dget "sample_dims" kws) as [sd|]; [|inversion Hp]. destruct (dget "batch_dim" kws) as [bd|]; [|inversion Hp].
    exists sd, bd. reflexivity. }
  destruct E as (sd & bd & E). rewrite E in Hp.
  pose proof (systematic_path W _ _ _ _ _ _ _ _ Hp) as (_ & _ & _ & v & lw1 & _ & _ & _ & _ & Ht & _).
  pose proof (resampled_keys _ _ _ _ Ht) as Hk. rewrite as_trace_id in Hr' by (unfold wf_dict; rewrite Hk; exact Hwf). clear -Ht Hr Hr'.
  induction Ht as [|[k x] [k' x'] tr tr' [Ek Hx] Ht IH]; [discriminate|]. cbn [fst snd dget] in *. subst k'.
  destruct (String.eqb a k); [|exact (IH Hr Hr')]. injection Hr as ->. injection Hr' as ->. unfold resampled_rv in Hx. destruct (moves r).
  - unfold is_observed. destruct Hx as (_ & _ & _ & ->). reflexivity.
  - rewrite Hx. reflexivity.
Qed.
Print Assumptions C72_systematic.

(** ** an instance: the hypotheses, a weight and the shared dictionary of two sweeps that really run *)
Example C72_hypotheses : gibbs_run (L := ZL) nets_ex gibbs_same gibbs_rs 2 gibbs_c [] gibbs_st /\
  dget "frames" gibbs_c = Some (VTensor (zten 2)) /\ n_frames ZL nets_ex (zten 2) = 2 /\
  (forall x, gibbs_same x x = true) /\ keeps_observed gibbs_rs.
Proof.
  split; [apply C47_hypotheses|]. split; [reflexivity|]. split; [reflexivity|]. split.
  - intros [[ta a] ga]. unfold gibbs_same. cbn. apply Z.eqb_refl.
  - intros tr lw kws items lw2 Hwf H a r r' Hr Hr'. inversion H. subst. rewrite as_trace_id in Hr' by exact Hwf. congruence.
Qed.
Example C72_case : exists o s',
  returns (run (L := ZL) (gibbs_step ZL nets_ex (fun lw _ => lw) (fun x => x) 2 1 1
    (sweep_steps ZL nets_ex (fun lw _ => lw) (fun x => x) gibbs_rs 2 1 1 (sweeps ZL nets_ex (fun lw _ => lw) (fun x => x) gibbs_rs 2 1 0))) (VDict gibbs_c) []) gibbs_st o s' /\
  (snd (fst (out_lw o)), dkeys (out_trace o), dget "z_where_1_1" (store s')) =
  (125%Z, ["z_where_0_1"; "z_where_1_1"; "z_what_0"; "recon"], Some (VTensor (true, 17%Z, 3%Z))).
Proof.
  apply (seen_by (L := ZL) (run (gibbs_step ZL nets_ex (fun lw _ => lw) (fun x => x) 2 1 1
    (sweep_steps ZL nets_ex (fun lw _ => lw) (fun x => x) gibbs_rs 2 1 1 (sweeps ZL nets_ex (fun lw _ => lw) (fun x => x) gibbs_rs 2 1 0))) (VDict gibbs_c) []) gibbs_st
    (map zten [1; 2; 3; 4; 5; 6; 7; 8; 9]%Z) (fun o s' => (snd (fst (out_lw o)), dkeys (out_trace o), dget "z_where_1_1" (store s')))). vm_compute. reflexivity.
Qed.
