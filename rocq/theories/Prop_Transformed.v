(** C09_transformed and C43_applied: what transf_q_trace is called on, and that the annealing sampler
    applies stl_trace in every step unless the objective is nvo_avo. *)
From Verif Require Import Prop_Annealing Prop_Session Thm_Systematic Prop_Loss.
From Verif Require Export Thm_Loss.

(** the whole contract of transf_q_trace, for every Propose called with [_debug] *)
Theorem C09_transformed : forall (L : lib) oid p q o tf nr c kws s (r : out L) s',
  wf_dict kws -> wf_st s -> truthy (kwarg "_debug" (VBool false) kws) = true ->
  returns (run (IPropose oid p q o tf nr) c kws) s r s' ->
  transformed (kwarg "sample_dims" VNone kws) (kwarg "batch_dim" VNone kws) (kwarg "reparameterized" (VBool true) kws)
    (kwarg "_debug" (VBool false) kws) tf r.
Proof.
  intros L oid p q o tf nr c kws s r s' W Ws Hd H. apply run_propose_returns in H; [|exact W|].
  2:{ intros qo s1 Hq. exact (proj1 (run_returns_wf _ _ _ _ _ _ (wf_sub_kwargs _ _ W) Ws Hq)). }
  destruct H as (qo & s1 & po & s2 & qt & lu & mo & mt & tr & pt & tt' & fw & l & _ & _ & _ & Hq & _ & _ & Htf & Hlu & _ & _ & _ & _ & _ & _ & _ & Hr).
  rewrite Hd in Hr. cbn [orb add_subs with_loss out_subs app out_trace out_lw out_output out_type out_ix out_loss out_marginal out_px] in Hr.
  exists qo, po. eexists. eexists. exists qt, lu. subst r. unfold get_sub. cbn [out_subs dget out_px out_ix px_nodes px_lv].
  split; [reflexivity|]. split; [reflexivity|]. split; [reflexivity|]. split; [reflexivity|].
  split; [exact (proj1 (run_returns_wf _ _ _ _ _ _ (wf_sub_kwargs _ _ W) Ws Hq))|].
  split; [|split; [exact Hlu|reflexivity]].
  destruct tf as [f|]; cbn [apply_transf] in Htf; [|congruence].
  match type of Htf with rmap as_trace (tf_call f ?x ?k) = _ => destruct (tf_call f x k) as [res|e] eqn:Ec; [|discriminate]; exists k, res end.
  injection Htf as <-. split; [|split; [exact Ec|reflexivity]].
  intros k v. match goal with |- dget k (dispatch_kwargs ?fn ?ks) = _ <-> _ =>
    assert (Hw : wf_dict ks) by (repeat constructor; cbn; intuition discriminate); pose proof (proj2 (C18_dispatch _ fn ks Hw) k v) as HC end.
  rewrite HC. unfold callee_accepts. cbn [c_self c_forward c_model]. split; intros [H1 H2]; (split; [|exact H2]).
  - destruct H1 as [H1|[(? & H1 & _)|(? & H1 & _)]]; [exact H1|discriminate|discriminate].
  - left. exact H1.
Qed.
Print Assumptions C09_transformed.

(** *** along the steps of a run *)
Section Steps.
  Context {L : lib}.
  Notation T := (T L). Notation pyval := (pyval T).
  Context (sd bd rep dbg : pyval) (Hdbg : truthy dbg = true).
  Definition shaped (kws : dict pyval) : Prop := wf_dict kws /\ kwarg "sample_dims" VNone kws = sd /\ kwarg "batch_dim" VNone kws = bd /\
    kwarg "reparameterized" (VBool true) kws = rep /\ kwarg "_debug" (VBool false) kws = dbg.
  Lemma shaped_sub ix kws : shaped kws -> shaped (sub_kwargs ix kws).
  Proof. intros (H & H1 & H2 & H3 & H4). split; [apply wf_sub_kwargs, H|]. repeat split; assumption. Qed.
  (** every proposal step below [o] satisfies [P i], [i] its position *)
  Definition all_steps (P : nat -> out L -> Prop) (k : nat) (q : inf L) (c : pyval) : Prop :=
    forall kws s o s', shaped kws -> wf_st s -> returns (run q c kws) s o s' ->
      exists outs, proposals o outs /\ length outs = k /\ forall i x, nth_error outs i = Some x -> P i x.
  Lemma propose_all P k q q2 oid p cid o oc tf nr c : all_steps P k q c ->
    (forall kws s o' s', shaped kws -> wf_st s -> returns (run (IPropose oid p (ICompose cid q2 q oc) o tf nr) c kws) s o' s' -> P k o') ->
    all_steps P (S k) (IPropose oid p (ICompose cid q2 q oc) o tf nr) c.
  Proof.
    intros Hq HP kws s r s' Hk Ws H. pose proof (HP kws s r s' Hk Ws H) as HPk. destruct Hk as (W & Hk).
    apply run_propose_returns in H; [|exact W|].
    2:{ intros qo s1 Hq0. exact (proj1 (run_returns_wf _ _ _ _ _ _ (wf_sub_kwargs _ _ W) Ws Hq0)). }
    destruct H as (qo & s1 & po & s2 & qt & lu & mo & mt & tr & pt & tt' & fw & l & _ & _ & _ & Hqo & _ & _ & _ & _ & _ & _ & _ & _ & _ & _ & _ & Hr).
    apply run_compose_returns in Hqo; [|apply wf_sub_kwargs, W].
    destruct Hqo as (o1 & s3 & o2 & tr2 & l2 & _ & _ & H1 & _ & _ & _ & _ & Eqo).
    destruct Hk as (E1 & E2 & E3 & E4).
    assert (Hd1 : truthy (kwarg "_debug" (VBool false) kws) = true) by (rewrite E4; exact Hdbg).
    assert (Hd2 : truthy (kwarg "_debug" (VBool false) (sub_kwargs (in_ix o) kws)) = true) by exact Hd1.
    rewrite Hd2 in Eqo. rewrite Hd1 in Hr. cbn [orb] in Eqo, Hr.
    destruct (Hq _ _ _ _ (shaped_sub _ _ (shaped_sub _ _ (conj W (conj E1 (conj E2 (conj E3 E4)))))) Ws H1) as (outs & P1 & P2 & P3).
    exists (outs ++ [r]). split.
    - eapply at_propose; [rewrite Hr; reflexivity|rewrite Hr; reflexivity|]. eapply at_compose; [rewrite Eqo; reflexivity|rewrite Eqo; reflexivity|exact P1].
    - rewrite app_length. cbn [length]. split; [lia|]. intros i x Hx. destruct (Nat.lt_ge_cases i (length outs)) as [Hi|Hi].
      + rewrite nth_error_app1 in Hx by exact Hi. apply P3, Hx.
      + rewrite nth_error_app2 in Hx by exact Hi. destruct (i - length outs) as [|j] eqn:Ei; [|destruct j; discriminate].
        cbn in Hx. injection Hx as <-. assert (i = k) by lia. subst i. exact HPk.
  Qed.
  Lemma resample_all P k q oid ix l0 rs d c : all_steps P k q c -> all_steps P k (IResample oid q ix l0 rs d) c.
  Proof.
    intros Hq kws s r s' Hk Ws H. pose proof Hk as (W & E1 & E2 & E3 & E4). apply run_resample_returns in H; [|exact W].
    destruct H as (qo & s1 & items & lw2 & c1 & c2 & st2 & _ & H1 & _ & _ & _ & _ & _ & Hr).
    destruct (Hq _ _ _ _ (shaped_sub _ _ Hk) Ws H1) as (outs & P1 & P2 & P3). exists outs. split; [|split; assumption].
    rewrite E4, Hdbg in Hr. cbn [orb] in Hr. eapply at_resample; [rewrite Hr; reflexivity|rewrite Hr; reflexivity|exact P1].
  Qed.
End Steps.

Lemma stl_called {L : lib} (detach_dist : D L -> D L) sd bd rep dbg z r : out_ix r = Some (VInt z) ->
  transformed sd bd rep dbg (Some (stl_transf detach_dist)) r ->
  exists q p px qt lu, get_sub "q_out" r = Some q /\ get_sub "p_out" r = Some p /\ out_px r = Some px /\
    stl_trace detach_dist (out_trace q) z = Ok qt /\ log_joint sd bd rep (px_nodes px) qt = Ok lu /\ px_lv px = tsub L (out_lw p) lu.
Proof.
  intros Hix (q & p & px & ix & qt & lu & H1 & H2 & H3 & H4 & Hwf & (kw & res & Hkw & Hc & ->) & H5 & H6).
  assert (ix = VInt z) by congruence. subst ix.
  assert (Ek : kwarg "ix" VNone kw = VInt z).
  { unfold kwarg. assert (dget "ix" kw = Some (VInt z)) as ->; [|reflexivity]. apply Hkw. split; [|reflexivity]. right. right. cbn. auto. }
  cbn [tf_call stl_transf] in Hc. rewrite Ek in Hc. exists q, p, px, res, lu. repeat split; try assumption.
  rewrite as_trace_id in H5; [exact H5|]. unfold stl_trace in Hc. destruct (copytraces _ _ _) as [t|e] eqn:Ec; [|discriminate]. cbn [rbind] in Hc.
  destruct (dget _ (out_trace q)) as [r0|]; [|discriminate]. destruct (eval_detached _ _) as [r1|e]; [|discriminate]. cbn [rbind] in Hc. injection Hc as <-.
  apply wf_dset. eapply copytraces_wf, Ec.
Qed.

(** In every step of the annealing sampler the density charged is that of the trace in which stl_trace
    detached the forward kernel (C43_exactly says how), unless the objective is nvo_avo. *)
Theorem C43_applied : forall (L : lib) (detach_dist : D L -> D L) (base : nat) (targets forwards reverses : list (inf L))
    (objective : out L -> res (T L)) (avo resample : bool) (rs : resampler L) (q : inf L) c kws s (o : out L) s' K,
  length forwards = K -> length reverses = K -> length targets = S K -> is_prog (hd q targets) ->
  wf_dict kws -> wf_st s -> truthy (kwarg "_debug" (VBool false) kws) = true ->
  vsmc detach_dist base targets forwards reverses objective avo resample rs = Ok q ->
  returns (run q c kws) s o s' ->
  exists outs, proposals o outs /\ length outs = K /\
    forall i x, nth_error outs i = Some x -> exists q p px qt lu,
      get_sub "q_out" x = Some q /\ get_sub "p_out" x = Some p /\ out_px x = Some px /\
      (if avo then qt = out_trace q else stl_trace detach_dist (out_trace q) (Z.of_nat i) = Ok qt) /\
      log_joint (kwarg "sample_dims" VNone kws) (kwarg "batch_dim" VNone kws) (kwarg "reparameterized" (VBool true) kws) (px_nodes px) qt = Ok lu /\
      px_lv px = tsub L (out_lw p) lu.
Proof.
  intros L dd base targets forwards reverses objective avo resample rs q c kws s o s' K Hf Hr Ht Hp W Ws Hd Hq H.
  unfold vsmc in Hq. destruct targets as [|t0 ts]; [discriminate|]. injection Hq as <-. cbn [hd] in Hp.
  set (steps := combine forwards (combine reverses ts)) in *.
  assert (Hlen : length steps = K) by (unfold steps; rewrite !combine_length; cbn [length] in Ht; lia).
  set (sd := kwarg "sample_dims" VNone kws). set (bd := kwarg "batch_dim" VNone kws). set (rep := kwarg "reparameterized" (VBool true) kws).
  set (dbg := kwarg "_debug" (VBool false) kws) in *.
  set (P := fun (i : nat) (x : out L) => exists q p px qt lu,
      get_sub "q_out" x = Some q /\ get_sub "p_out" x = Some p /\ out_px x = Some px /\
      (if avo then qt = out_trace q else stl_trace dd (out_trace q) (Z.of_nat i) = Ok qt) /\
      log_joint sd bd rep (px_nodes px) qt = Ok lu /\ px_lv px = tsub L (out_lw p) lu).
  assert (Hloop : forall steps k q, all_steps sd bd rep dbg P k q c ->
    all_steps sd bd rep dbg P (k + length steps) (vsmc_loop dd objective avo resample rs base (length forwards) k steps q) c).
  { clear -Hd. intros steps. induction steps as [|[fwd [rev p]] steps IH]; intros k q Hq; cbn [vsmc_loop length]; [rewrite Nat.add_0_r; exact Hq|].
    rewrite <- Nat.add_succ_comm. apply IH. unfold vsmc_step.
    assert (HS : all_steps sd bd rep dbg P (S k) (IPropose (base + 4 * k + 2) (IExtend (base + 4 * k) p rev (mkOpts default_loss None VNone false))
        (ICompose (base + 4 * k + 1) fwd q (mkOpts default_loss None VNone true))
        (mkOpts (fun o loss => rmap (fun l => tadd L l loss) (objective o)) None (VInt (Z.of_nat k)) true)
        (if avo then None else Some (stl_transf dd)) false) c).
    { apply propose_all; [exact Hd|exact Hq|]. intros kws0 s0 o0 s0' (W0 & E1 & E2 & E3 & E4) Ws0 H0.
      assert (Hd0 : truthy (kwarg "_debug" (VBool false) kws0) = true) by (rewrite E4; exact Hd).
      pose proof (C09_transformed _ _ _ _ _ _ _ _ _ _ _ _ W0 Ws0 Hd0 H0) as HT. rewrite E1, E2, E3, E4 in HT.
      pose proof (C17_reported_index _ _ _ _ _ _ _ W0 Ws0 H0) as [_ Hix]. cbn [own_index in_ix] in Hix.
      unfold P. destruct avo.
      - destruct HT as (q0 & p0 & px & ix & qt & lu & H1 & H2 & H3 & H4 & _ & H5 & H6 & H7). exists q0, p0, px, qt, lu. repeat split; assumption.
      - exact (stl_called dd sd bd rep dbg _ o0 Hix HT). }
    destruct (resample && _); [apply resample_all; [exact Hd|exact HS]|exact HS]. }
  assert (H0 : all_steps sd bd rep dbg P 0 t0 c).
  { intros kws0 s0 o0 s0' _ _ H0. exists []. split; [constructor; eapply prog_type; eassumption|]. split; [reflexivity|]. intros [] x Hx; discriminate. }
  specialize (Hloop steps 0%nat t0 H0). cbn [Nat.add] in Hloop. rewrite Hlen in Hloop.
  apply (Hloop kws s o s'); [|exact Ws|exact H]. repeat split; [exact W|..]; reflexivity.
Qed.
Print Assumptions C43_applied.
(** two steps that really run, with resampling between them *)
Example C43_applied_case : exists q o s' outs, zvsmc 2 true = Ok q /\ returns (run q VNone [("_debug", VBool true)]) (st0 ZL) o s' /\
  proposals o outs /\ length outs = 2%nat.
Proof.
  destruct C75_annealing_case as (q & o & s' & Hq & H & _).
  destruct (C43_applied ZL (fun d => d) 8 (pb_targets zproblem 2) (pb_forwards zproblem 2) (pb_reverses zproblem 2) (fun o => Ok (out_lw o)) false true zrs q VNone
    [("_debug", VBool true)] (st0 ZL) o s' 2) as (outs & P1 & P2 & _); try reflexivity; try assumption; try exact I.
  - repeat constructor; cbn; intuition discriminate.
  - intros i t0 E. discriminate.
  - exists q, o, s', outs. repeat split; assumption.
Qed.
