(** C65: what the evaluation of an annealing sampler reports. *)
From Coq Require Import Reals Lra.
From Verif Require Import Spec Instances SpecAnnealing Evaluation Thm_Session Thm_Annealing Thm_Stats Prop_Annealing.

Lemma sd_outcome_and {L : lib} {A B} (R : A -> B -> Prop) (P : A -> Prop) (t : stree L A) u :
  same_draws R t u -> (forall a, outcome t a -> P a) -> same_draws (fun a b => R a b /\ P a) t u.
Proof.
  induction 1 as [a b H|d k k' H IH]; intros HP; constructor; [split; [exact H|apply HP; constructor]|].
  intros v. apply IH. intros a Ha. apply HP. econstructor. exact Ha.
Qed.
Lemma sd_and {L : lib} {A B} (R R' : A -> B -> Prop) (t : stree L A) u :
  same_draws R t u -> same_draws R' t u -> same_draws (fun a b => R a b /\ R' a b) t u.
Proof.
  induction 1 as [a b H|d k k' H IH]; intros H2; inversion H2 as [|d' k1 k1' H3]; subst; constructor; [split; assumption|].
  intros v. apply IH. apply H3.
Qed.
Lemma sd_all {L : lib} {A B I} (R : I -> A -> B -> Prop) (i0 : I) (t : stree L A) u :
  (forall i, same_draws (R i) t u) -> same_draws (fun a b => forall i, R i a b) t u.
Proof.
  revert u. induction t as [a|d k IH]; intros u H.
  - pose proof (H i0) as H0. inversion H0 as [a' b Hb|]; subst. constructor. intros i. specialize (H i). inversion H; assumption.
  - pose proof (H i0) as H0. inversion H0 as [|d' k1 k1' H3]; subst. constructor. intros v. apply IH. intros i. specialize (H i).
    inversion H as [|d' k2 k2' H4]; subst. apply H4.
Qed.
Lemma spine_unique {L : lib} (o : out L) l : spine o l -> forall l', spine o l' -> l = l'.
Proof.
  induction 1 as [o Ho|o qo q1 l Ho Eq Ec E1 H IH|o q l Ho Eq H IH]; intros l' H'; inversion H'; subst; try congruence.
  - f_equal. apply IH. congruence.
  - apply IH. congruence.
Qed.
Lemma sampled_points_ok {L : lib} (f : nat -> T L) (trs : list (trace L)) : forall i,
  (forall t tr, nth_error trs t = Some tr -> exists r, dget (gname (S (i + t))) tr = Some r /\ rv_value r = f (i + t)) ->
  sampled_points (L := L) i trs = Ok (map (fun t => (gname (S t), f t)) (seq i (length trs))).
Proof.
  induction trs as [|tr trs IH]; intros i H; cbn [sampled_points length seq map]; [reflexivity|].
  destruct (H 0 tr eq_refl) as (r & E1 & E2). rewrite Nat.add_0_r in *. replace (i + 1) with (S i) by lia. rewrite E1, E2.
  rewrite IH; [reflexivity|]. intros t tr' Ht. destruct (H (S t) tr' Ht) as (r' & E3 & E4).
  replace (S i + t) with (i + S t) by lia. exists r'. split; assumption.
Qed.

(** ** C65 The evaluation reports every intermediate target
    nvi_test on a sampler of K steps draws one chain z_0, z_1, ..., z_K of the Markov chain and
    returns without exception: the sample labelled g_k is the point z_k the chain had at step k
    (k = 1..K, in order), and the k-th effective sample size and log-evidence are those of the
    tensor of importance weights of the chain up to step k, for the target g_k: [vals i] reads
    the entry of any particle [i].  The losses are those of the steps, in order. *)
Theorem C65_evaluation (L : lib) (HL : lib_laws L) (I : Type) (i0 : I) (vals : I -> T L -> R) (pb : problem L)
    (detach_dist : D L -> D L) (loss_fn : out L -> res (T L)) (avo : bool) (rs : resampler L) (base K : nat)
    (sample_shape : pyval (T L)) (batch_dim sample_dims : Z) (ess log_Z : Z -> T L -> T L) (s : st L) (q : inf L) :
  let sd := VInt sample_dims in let bd := VInt batch_dim in
  (forall i, reads (vals i) sd bd pb) ->
  (forall x, is_tensor L (detach L x) = is_tensor L x) ->
  (forall b pv, lj_ok L (VBool true) b pv = true) ->
  (forall d v, tensor_equal L (logp L d v) (logp L (detach_dist d) v) = true) ->
  (forall i d v, vals i (bsum L sd bd (logp L (detach_dist d) v)) = vals i (bsum L sd bd (logp L d v))) ->
  (forall o px, out_px o = Some px -> exists l, loss_fn o = Ok l) -> (forall o l, loss_fn o = Ok l -> is_tensor L l = true) ->
  identities pb base K -> K <> 0%nat -> clean s ->
  vsmc detach_dist base (pb_targets pb K) (pb_forwards pb K) (pb_reverses pb K) loss_fn avo false rs = Ok q ->
  same_draws (fun x zs => length zs = S K /\ exists e s' lws outs, x = (Ok e, s') /\ clean s' /\
      ev_samples e = map (fun k => (gname k, pt zs k)) (seq 1 K) /\
      ev_ess e = map (ess sample_dims) lws /\ ev_log_Z e = map (log_Z sample_dims) lws /\
      length lws = K /\
      (forall i k, (1 <= k <= K)%nat -> vals i (nth (k - 1) lws (tzero L)) = ais_weight (vals i) sd bd pb k (firstn (S k) zs)) /\
      SpecAnnealing.spine (ev_out e) outs /\ length outs = K /\
      map Some (ev_loss e) = map (fun x => option_map (detach L) (out_loss x)) outs)
    (nvi_test ess log_Z q sample_shape batch_dim sample_dims s) (chain pb sample_shape K).
Proof.
  cbn zeta. intros HR Hten Hlj H1 H2 Hl' Hl2 Hid HK Hs Hq.
  set (kws := [("sample_shape", sample_shape); ("sample_dims", VInt sample_dims); ("batch_dim", VInt batch_dim); ("_debug", VBool true)]).
  assert (Hwf : wf_dict kws) by (unfold wf_dict, kws; cbn; repeat constructor; cbn; intuition discriminate).
  assert (G : same_draws (fun x zs => forall i, good (VInt sample_dims) (VInt batch_dim) (vals i) pb K x zs)
                (run q VNone kws s) (chain pb sample_shape K)).
  { apply (sd_all _ i0). intros i.
    destruct (identities_wlog pb base K Hid) as (base' & t & r' & Ho1 & Ho2 & Ho3 & E). rewrite <- (chain_relabel pb t r').
    change sample_shape with (kwarg (L := L) "sample_shape" (VTup [VInt 1; VInt 1]) kws).
    apply (vsmc_good HL _ _ _ Hlj (vals i) (relabel pb t r') (reads_relabel _ _ _ _ t r' (HR i)) detach_dist H1 (H2 i) loss_fn Hl' avo rs base' Ho1 Ho2 Ho3 K VNone kws s q).
    - repeat split. exact Hwf.
    - exact Hs.
    - rewrite E. exact Hq. }
  unfold nvi_test. fold kws. unfold mbind.
  eapply sd_bind_l.
  { eapply sd_outcome_and; [exact G|]. intros x Hx. exact Hx. }
  intros x zs [HG Hx].
  destruct (HG i0) as (r & w & v & (Hlen & _ & _ & _) & (o & s' & -> & Hc' & _) & _).
  destruct (C42_stats_in_order L detach_dist base (pb_targets pb K) (pb_forwards pb K) (pb_reverses pb K) loss_fn avo false rs q VNone kws s o s')
    as (outs & sts & Hlo & Hsp & _ & Est & _ & Elw & Elo & Epr & _); auto.
  { exact (rd_tensor_add _ _ _ _ (HR i0)). }
  { unfold pb_forwards. apply Forall_forall. intros f Hf. apply in_map_iff in Hf. destruct Hf as (k & <- & _). exact Logic.I. }
  { cbn. exact Logic.I. }
  { unfold pb_forwards, pb_reverses, pb_targets. cbn [length]. rewrite !map_length, !seq_length. lia. }
  { intros j tr E. rewrite Hs in E. discriminate. }
  assert (EK : length outs = K).
  { rewrite Hlo. unfold pb_forwards, pb_reverses, pb_targets. cbn [length]. rewrite !map_length, !seq_length. lia. }
  assert (Hrep : forall i t y, nth_error outs t = Some y -> step_reports (VInt sample_dims) (VInt batch_dim) (vals i) pb zs t y).
  { intros i t y Hy. destruct (HG i) as (_ & _ & _ & _ & _ & (o' & outs' & Eo & _ & Hsp' & Hr)). cbn [fst] in Eo. injection Eo as <-.
    rewrite (spine_unique _ _ Hsp _ Hsp') in Hy. apply Hr, Hy. }
  assert (Es : sampled_points 0 (st_proposal sts) = Ok (map (fun k => (gname k, pt zs k)) (seq 1 K))).
  { assert (El : length (st_proposal sts) = K) by (rewrite <- (map_length Some), Epr, map_length; exact EK).
    rewrite (sampled_points_ok (fun t => pt zs (S t))).
    - rewrite El, <- seq_shift, map_map. reflexivity.
    - intros t tr Ht. destruct (nth_error outs t) as [y|] eqn:Ey.
      + destruct (Hrep i0 t y Ey) as [(px & rr & E1 & E2 & E3) _].
        assert (Et : nth_error (map Some (st_proposal sts)) t = Some (Some tr)) by (rewrite nth_error_map, Ht; reflexivity).
        rewrite Epr, nth_error_map, Ey in Et. cbn [option_map] in Et. rewrite E1 in Et. cbn [option_map] in Et. injection Et as <-.
        exists rr. split; assumption.
      + apply nth_error_None in Ey. assert (Hx' : nth_error (st_proposal sts) t <> None) by congruence. apply nth_error_Some in Hx'. lia. }
  cbn [fst snd]. unfold lift. rewrite Est. cbn [rbind]. rewrite Es. cbn [rmap]. constructor.
  split; [exact Hlen|]. exists (mkEval (st_loss sts) (map (ess sample_dims) (st_lw sts)) (map (log_Z sample_dims) (st_lw sts)) (map (fun k => (gname k, pt zs k)) (seq 1 K)) o), s', (st_lw sts), outs.
  split; [reflexivity|]. split; [exact Hc'|]. split; [reflexivity|]. split; [reflexivity|]. split; [reflexivity|].
  split; [rewrite Elw, map_length; exact EK|]. split; [|split; [exact Hsp|split; [exact EK|exact Elo]]].
  intros i k Hk. rewrite Elw. destruct (nth_error outs (k - 1)) as [y|] eqn:Ey; [|apply nth_error_None in Ey; lia].
  erewrite nth_error_nth; [|rewrite nth_error_map, Ey; reflexivity].
  destruct (Hrep i _ _ Ey) as [_ E4]. replace (S (k - 1)) with k in E4 by lia.
  rewrite (rd_detach _ _ _ _ (HR i)). exact E4.
Qed.
Print Assumptions C65_evaluation.

(** the integer problem of C41 meets the hypotheses, and a test of three steps really runs:
    chain 1, 3, 2, 5 *)
Example C65_hypotheses : (forall i : unit, reads ((fun _ => zval) i) (VInt 0) (VInt 1) zproblem) /\
  (forall x, is_tensor ZL (detach ZL x) = is_tensor ZL x) /\ (forall b pv, lj_ok ZL (VBool true) b pv = true) /\
  (forall d v, tensor_equal ZL (logp ZL d v) (logp ZL d v) = true).
Proof.
  split; [|split; [|split]].
  - intros _. constructor; cbn; try reflexivity.
    + intros [[ta a] ga] [[tb b] gb]. cbn. apply plus_IZR.
    + intros [[ta a] ga] [[tb b] gb]. cbn. apply minus_IZR.
    + intros [[ta a] ga]. reflexivity.
    + intros d [[ta a] ga]. reflexivity.
    + intros k [[ta a] ga]. reflexivity.
    + intros k [[tx x] gx] [[ta a] ga]. reflexivity.
    + intros [[ta a] ga] [[tb b] gb]. reflexivity.
    + intros [[ta a] ga] [[tb b] gb]. reflexivity.
    + intros d [[ta a] ga]. reflexivity.
  - intros [[t a] g]. reflexivity.
  - reflexivity.
  - intros d [[t a] g]. cbn. rewrite ?Z.eqb_refl, ?Bool.eqb_reflx. reflexivity.
Qed.
Example C65_case : exists q e s', zvsmc 3 false = Ok q /\
  returns (nvi_test (L := ZL) (fun _ x => x) (fun _ x => x) q (VTup [VInt 1; VInt 1]) 1 0) (st0 ZL) e s' /\
  ev_samples e = [("g1", zten 3); ("g2", zten 2); ("g3", zten 5)].
Proof.
  eexists. destruct (seen_by (nvi_test (L := ZL) (fun _ x => x) (fun _ x => x) (match zvsmc 3 false with Ok q => q | Err _ => P_z end) (VTup [VInt 1; VInt 1]) 1 0) (st0 ZL)
     [zten 1; zten 3; zten 2; zten 5] (fun e _ => ev_samples e) [("g1", zten 3); ("g2", zten 2); ("g3", zten 5)]) as (e & s' & H & E); [vm_compute; reflexivity|].
  exists e, s'. split; [reflexivity|]. split; [exact H|exact E].
Qed.
