(** C47: the sweeps of the Gibbs experiment. *)
From Verif Require Import SpecGibbs Prop_Gibbs Thm_GibbsRun Thm_Systematic.
Close Scope R_scope.
Open Scope nat_scope.

(** The hypotheses that are common to the theorems: the sums and differences of the library behave
    like torch's; the resampler keeps addresses; [detach] does not change the number of frames; the
    call passes a video of [T_] >= 1 frames, and runs with the hook of the experiment while no
    program is conditioned. *)
Record gibbs_run {L : lib} (N : nets L) (same : T L -> T L -> bool) (rs : resampler L) (T_ : nat)
    (c : dict (pyval (T L))) (kws : dict (pyval (T L))) (s : st L) : Prop := mkGR {
  gr_laws : lib_laws L;
  gr_tensors : tensor_laws L;
  gr_joint : forall r b p, lj_ok L r b p = true;
  gr_rs : keeps_addresses rs;
  gr_detach : forall x, n_frames L N (detach L x) = n_frames L N x;
  gr_frames : exists fr, dget "frames" c = Some (VTensor fr) /\ n_frames L N fr = T_;
  gr_pos : 1 <= T_;
  gr_call : plain_call kws;
  gr_clean : forall i, get_cond i s = None;
  gr_hook : hook s = apg_hook same }.

(** Any number of sweeps over any number of frames: whatever is drawn, the run either returns, or the
    resampler raised; no Compose, Extend or Propose raises.  A returned trace has exactly the addresses
    of the last sweep, and every latent variable of the last target was supplied by its proposal. *)
Theorem C47_runs : forall (L : lib) (N : nets L) same wmean node_sum rs T_ c kws s num_sweeps,
  gibbs_run N same rs T_ c kws s ->
  forall r s', outcome (run (gibbs_sweeps L N wmean node_sum rs num_sweeps T_) (VDict c) kws s) (r, s') ->
  match r with
  | Ok o => wf_dict (out_trace o) /\
      (forall a, In a (dkeys (out_trace o)) <->
         In a (map (fun t => z_where (Z.of_nat t) (Z.of_nat num_sweeps)) (seq 0 T_) ++ [z_what (Z.of_nat num_sweeps); "recon"])) /\
      (exists px, out_px o = Some px /\ supplied px)
  | Err e => resampler_raises T_ rs e
  end.
Proof.
  intros L N same wmean node_sum rs T_ c kws s n [H1 H2 H3 H4 H5 (fr & Hf & Hn) H6 H7 H8 H9] r s' Ho.
  pose proof (gibbs_good H1 H2 H3 N same wmean node_sum rs H4 H5 T_ H6 c fr Hf Hn n kws s H7 (conj H8 H9) _ Ho) as H.
  unfold finished in H. cbn [fst snd] in H. destruct r as [o|e]; [|exact H]. destruct H as [(Hwf & Hk & _) Hp].
  split; [exact Hwf|]. split.
  - intros a. rewrite Hk. unfold posterior_addresses. rewrite Nat.eqb_refl.
    replace (map (current_where (Z.of_nat T_) (Z.of_nat n)) (seq 0 T_)) with (map (fun t => z_where (Z.of_nat t) (Z.of_nat n)) (seq 0 T_)); [reflexivity|].
    apply map_ext_in. intros i Hi. apply in_seq in Hi. unfold current_where. destruct (Z.leb_spec (Z.of_nat i) (Z.of_nat T_)); [reflexivity|lia].
  - destruct n; destruct Hp as (px & Hpx & Hs & _); exists px; auto.
Qed.
Print Assumptions C47_runs.

(** Every Propose on the way: step [t] of sweep [S s] ([t = T_]: the digits), applied to the program
    built up to there.  The target has the addresses of the current sample and the replaced one, each
    latent variable supplied by the proposal; what is left is a sample of the posterior. *)
Theorem C47_steps : forall (L : lib) (N : nets L) same wmean node_sum rs T_ c kws st num_sweeps s t,
  gibbs_run N same rs T_ c kws st -> s < num_sweeps -> t <= T_ ->
  let q := sweep_steps L N wmean node_sum rs T_ (S s) t (sweeps L N wmean node_sum rs T_ num_sweeps s) in
  forall r st', outcome (run (gibbs_step L N wmean node_sum T_ (S s) t q) (VDict c) kws st) (r, st') ->
  match r with
  | Ok o => wf_dict (out_trace o) /\
      (forall a, In a (dkeys (out_trace o)) <-> In a (posterior_addresses T_ t (S s))) /\
      exists px, out_px o = Some px /\ supplied px /\
        ~ In (replaced_address T_ t (S s)) (dkeys (out_trace o)) /\
        (forall a, In a (dkeys (px_target_trace px)) <-> In a (dkeys (out_trace o)) \/ a = replaced_address T_ t (S s))
  | Err e => resampler_raises T_ rs e
  end.
Proof.
  intros L N same wmean node_sum rs T_ c kws st n s t [H1 H2 H3 H4 H5 (fr & Hf & Hn) H6 H7 H8 H9] Hs Ht q r st' Ho.
  assert (H := step_good H1 H2 H3 N same wmean node_sum rs H5 T_ H6 c fr Hf Hn q t s kws st Ht H7 (conj H8 H9)).
  assert (Hq : forall kws', plain_call kws' -> always (run q (VDict c) kws' st) (good N same rs T_ (fst (before T_ t s)) (snd (before T_ t s)))).
  { intros kws' Hp. unfold q. apply (steps_good H1 H2 H3 N same wmean node_sum rs H4 H5 T_ H6 c fr Hf Hn s); [|exact Ht|exact Hp|exact (conj H8 H9)].
    intros kws2 st2 Hp2 Hc2. pose proof (sweeps_good H1 H2 H3 N same wmean node_sum rs H4 H5 T_ H6 c fr Hf Hn n s ltac:(lia) kws2 st2 Hp2 Hc2) as Hg.
    destruct (Nat.eqb_spec s n); [lia|exact Hg]. }
  specialize (H Hq _ Ho). unfold stepped in H. cbn [fst snd] in H. destruct r as [o|e]; [|exact H].
  destruct H as [(Hwf & Hk & _) (px & Hpx & Hsup & Hkp)]. split; [exact Hwf|]. split; [exact Hk|]. exists px. split; [exact Hpx|]. split; [exact Hsup|].
  split; [|intros a; rewrite Hkp, Hk; reflexivity].
  rewrite Hk, (posterior_In N T_ H6 fr Hn). unfold replaced_address, what_addr, current_where. destruct (Nat.eqb_spec t T_) as [->|Hne].
  - intros [(i & _ & E)|[E|E]]; [discriminate| |discriminate]. apply z_what_inj in E. lia.
  - intros [(i & Hi & E)|[E|E]]; [|discriminate|discriminate]. apply z_where_inj in E. destruct E as [E1 E2]. apply Nat2Z.inj in E1. subst i.
    rewrite Z.leb_refl in E2. lia.
Qed.
Print Assumptions C47_steps.

(** With a resampler that does not raise, every run returns (and there is one). *)
Theorem C47_total : forall (L : lib) (N : nets L) same wmean node_sum rs T_ c kws s num_sweeps,
  gibbs_run N same rs T_ c kws s -> (forall tr lw kw e, ~ outcome (rs_call rs tr lw kw) (Err e)) ->
  (forall r s', outcome (run (gibbs_sweeps L N wmean node_sum rs num_sweeps T_) (VDict c) kws s) (r, s') -> exists o, r = Ok o) /\
  exists r, outcome (run (gibbs_sweeps L N wmean node_sum rs num_sweeps T_) (VDict c) kws s) r.
Proof.
  intros L N same wmean node_sum rs T_ c kws s n Hg Hrs. split.
  - intros r s' Ho. pose proof (C47_runs L N same wmean node_sum rs T_ c kws s n Hg r s' Ho) as H.
    destruct r as [o|e]; [exists o; reflexivity|]. destruct H as (t & s2 & tr & lw & kw & _ & _ & H). destruct (Hrs _ _ _ _ H).
  - generalize (run (gibbs_sweeps L N wmean node_sum rs n T_) (VDict c) kws s). intros t. induction t as [a|d k IH].
    + exists a. constructor.
    + destruct (IH (tzero L)) as [r Hr]. exists r. econstructor. exact Hr.
Qed.
Print Assumptions C47_total.

(** The resampler that Resample(normalize_weights=True) makes keeps addresses. *)
Theorem C47_systematic : forall (L : lib) (W : array_view L) nrm, keeps_addresses (systematic W nrm).
Proof.
  intros L W nrm tr lw kws items lw2 Hwf Ho a. apply outcome_path in Ho. destruct Ho as [ds Hp]. cbn [rs_call systematic] in Hp.
  assert (E : exists sd bd, systematic_call W nrm tr lw kws = systematic_call W nrm tr lw [("sample_dims", sd); ("batch_dim", bd)]).
  { unfold systematic_call in *. destruct (dget "sample_dims" kws) as [sd|]; [|inversion Hp]. destruct (dget "batch_dim" kws) as [bd|]; [|inversion Hp].
    exists sd, bd. reflexivity. }
  destruct E as (sd & bd & E). rewrite E in Hp.
  pose proof (systematic_path W _ _ _ _ _ _ _ _ Hp) as (_ & _ & _ & v & lw1 & _ & _ & _ & _ & Ht & _).
  pose proof (resampled_keys _ _ _ _ Ht) as Hk. rewrite as_trace_id by (unfold wf_dict; rewrite Hk; exact Hwf). rewrite Hk. reflexivity.
Qed.
Print Assumptions C47_systematic.

(** ** an instance: 2 frames, integer networks, two sweeps really run *)
Definition gibbs_c : dict (pyval ZT) := [("frames", VTensor (zten 2))].
Definition gibbs_same (a b : ZT) : bool := tensor_equal ZL a b.
Definition gibbs_rs : resampler ZL := mkRS (L := ZL) sig_model (fun tr lw _ => Leaf (Ok (tr, lw))).
Definition gibbs_st : st ZL := mkSt (L := ZL) [] [] (apg_hook (L := ZL) gibbs_same) [].
Example C47_hypotheses : gibbs_run (L := ZL) nets_ex gibbs_same gibbs_rs 2 gibbs_c [] gibbs_st /\
  (forall tr lw kw e, ~ outcome (rs_call gibbs_rs tr lw kw) (Err e)).
Proof.
  split; [|intros tr lw kw e H; inversion H].
  constructor.
  - exact ZL_laws.
  - constructor; [intros [[ta a] ga] [[tb b] gb]; reflexivity..|intros sd bd d [[ta a] ga]; reflexivity].
  - reflexivity.
  - intros tr lw kws items lw2 Hwf H a. inversion H. subst. rewrite as_trace_id by exact Hwf. reflexivity.
  - intros [[ta a] ga]. reflexivity.
  - exists (zten 2). split; reflexivity.
  - lia.
  - split; [constructor|]. intros k _ [].
  - reflexivity.
  - reflexivity.
Qed.
Example C47_case : exists o s', returns (run (L := ZL) (gibbs_sweeps ZL nets_ex (fun lw _ => lw) (fun x => x) gibbs_rs 2 2) (VDict gibbs_c) []) gibbs_st o s' /\
  dkeys (out_trace o) = ["z_where_0_2"; "z_where_1_2"; "z_what_2"; "recon"].
Proof.
  apply (seen_by (L := ZL) (run (gibbs_sweeps ZL nets_ex (fun lw _ => lw) (fun x => x) gibbs_rs 2 2) (VDict gibbs_c) []) gibbs_st
    (map zten [1; 2; 3; 4; 5; 6; 7; 8; 9; 10; 11; 12; 13; 14; 15]%Z) (fun o _ => dkeys (out_trace o))). vm_compute. reflexivity.
Qed.
