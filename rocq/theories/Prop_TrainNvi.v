(** C71: what the training of an annealing sampler does to the parameters and what it reports. *)
From Coq Require Import Reals Lra.
From Verif Require Import Spec Instances SpecAnnealing TrainNvi RunEq RunInv Thm_Session Thm_Annealing Thm_Stats Prop_Annealing Prop_Evaluation.

(** ** Specification
    An iteration of the training: the parameters before and after it, what the sampler drew and
    the result of its call. *)
Record iteration (L : lib) (P : Type) : Type := mkIter {
  it_before : P; it_after : P; it_draws : list (draw_kind L * T L); it_result : out L }.
Arguments mkIter {L P}. Arguments it_before {L P}. Arguments it_after {L P}. Arguments it_draws {L P}. Arguments it_result {L P}.
(** each iteration starts from the parameters the previous one left *)
Fixpoint linked {L P} (p : P) (its : list (iteration L P)) (p' : P) : Prop :=
  match its with
  | [] => p' = p
  | it :: rest => it_before it = p /\ linked (it_after it) rest p'
  end.

(** ** Paths of a sequence *)
Lemma path_tbind {L : lib} {A B} (t : stree L A) (f : A -> stree L B) : forall ds b, path (tbind t f) ds b ->
  exists ds1 ds2 a, ds = ds1 ++ ds2 /\ path t ds1 a /\ path (f a) ds2 b.
Proof.
  induction t as [a|d k IH]; cbn [tbind]; intros ds b H.
  - exists [], ds, a. repeat split; [constructor|exact H].
  - inversion H as [|d' k' v ds' b' H1]; subst. destruct (IH v ds' b H1) as (ds1 & ds2 & a & -> & H2 & H3).
    exists ((d, v) :: ds1), ds2, a. repeat split; [constructor; exact H2|exact H3].
Qed.
Lemma path_leaf_inv {L : lib} {A} (a : A) ds b : path (L := L) (Leaf a) ds b -> ds = [] /\ b = a.
Proof. intros H. inversion H; auto. Qed.

Section Loop.
  Context {L : lib} {P G : Type} (W : torch_train L P G) (q : P -> inf L) (shape : pyval (T L)) (bd sd : Z).
  Notation kws := (train_kwargs (L := L) shape bd sd).

  Lemma kws_wf : wf_dict kws.
  Proof. unfold wf_dict, train_kwargs; cbn; repeat constructor; cbn; intuition discriminate. Qed.

  (** [Inv]: kept by the calls of the sampler *)
  Context (Inv : st L -> Prop) (HInv : forall p s ds o s', Inv s -> path (run (q p) VNone kws s) ds (Ok o, s') -> Inv s').

  (** one iteration that returns *)
  Definition did (it : iteration L P) (row_loss row_lw : list (T L)) : Prop :=
    (exists s1 s2, Inv s1 /\ path (run (q (it_before it)) VNone kws s1) (it_draws it) (Ok (it_result it), s2)) /\
    (exists l g, out_loss (it_result it) = Some l /\ tt_backward W (tt_mean W l) = Ok g /\
                 it_after it = tt_update W (it_before it) (tt_add W (tt_zero W) g)) /\
    (exists sts, get_stats (it_result it) = Ok sts /\ row_loss = st_loss sts /\ row_lw = st_lw sts).

  Lemma step_did p g s ds rl rw p' g' s' : Inv s -> path (train_step W q shape bd sd p g s) ds (Ok (rl, rw), (p', g'), s') ->
    exists it, it_before it = p /\ it_after it = p' /\ it_draws it = ds /\ did it rl rw /\ Inv s'.
  Proof.
    intros Hs H. unfold train_step in H. apply path_tbind in H. destruct H as (d1 & d2 & [[o|e] s1] & -> & H1 & H2).
    2:{ apply path_leaf_inv in H2. destruct H2 as [_ H2]. discriminate. }
    assert (Hs1 : Inv s1) by (eapply HInv; eassumption).
    destruct (out_loss o) as [l|] eqn:El; [|apply path_leaf_inv in H2; destruct H2 as [_ H2]; discriminate].
    destruct (negb (is_tensor L l)); [apply path_leaf_inv in H2; destruct H2 as [_ H2]; discriminate|].
    destruct (negb (is_tensor L (out_lw o))); [apply path_leaf_inv in H2; destruct H2 as [_ H2]; discriminate|].
    destruct (tt_backward W (tt_mean W l)) as [gl|e] eqn:Eb; [|apply path_leaf_inv in H2; destruct H2 as [_ H2]; discriminate].
    cbn zeta in H2. destruct (_ && _ && _); [|apply path_leaf_inv in H2; destruct H2 as [_ H2]; discriminate].
    destruct (get_stats o) as [sts|e] eqn:Es; cbn [rmap] in H2; apply path_leaf_inv in H2; destruct H2 as [-> H2]; [|discriminate].
    injection H2 as -> -> -> -> ->. rewrite app_nil_r.
    exists (mkIter p (tt_update W p (tt_add W (tt_zero W) gl)) d1 o).
    repeat split; cbn [it_before it_after it_draws it_result]; [| | |exact Hs1].
    - exists s, s1. split; assumption.
    - exists l, gl. repeat split; assumption.
    - exists sts. repeat split; assumption.
  Qed.

  Lemma loop_did n : forall p g s ds losses lws p' g' s', Inv s ->
    path (train_loop W q shape bd sd n p g s) ds (Ok (losses, lws), (p', g'), s') ->
    exists its, ds = flat_map it_draws its /\ length its = n /\ linked p its p' /\
      length losses = n /\ length lws = n /\
      (forall i it, nth_error its i = Some it -> did it (nth i losses []) (nth i lws [])).
  Proof.
    induction n as [|n IH]; intros p g s ds losses lws p' g' s' Hs H; cbn [train_loop] in H.
    - apply path_leaf_inv in H. destruct H as [-> H]. injection H as -> -> -> -> ->. exists [].
      do 5 (split; [reflexivity|]). intros [|i] it Hi; discriminate.
    - apply path_tbind in H. destruct H as (d1 & d2 & [[[[rl rw]|e] [p1 g1]] s1] & -> & H1 & H2).
      2:{ apply path_leaf_inv in H2. destruct H2 as [_ H2]. discriminate. }
      apply path_tbind in H2. destruct H2 as (d3 & d4 & [[[[ls ws]|e] [p2 g2]] s2] & -> & H2 & H3).
      2:{ apply path_leaf_inv in H3. destruct H3 as [_ H3]. discriminate. }
      apply path_leaf_inv in H3. destruct H3 as [-> H3]. injection H3 as -> -> -> -> ->.
      apply step_did in H1; [|exact Hs]. destruct H1 as (it & E1 & E2 & E3 & H1 & Hs1).
      apply IH in H2; [|exact Hs1]. destruct H2 as (its & E4 & E5 & E6 & E7 & E8 & H2).
      exists (it :: its). cbn [flat_map length linked]. rewrite app_nil_r.
      split; [congruence|]. split; [congruence|]. split; [split; [exact E1|rewrite E2; exact E6]|].
      split; [congruence|]. split; [congruence|].
      intros [|i] it' Hi; cbn [nth_error nth] in *; [injection Hi as <-; exact H1|]. apply H2, Hi.
  Qed.
End Loop.
Lemma calls_wf {L : lib} {P} (q : P -> inf L) shape bd sd p s ds o s' : wf_st s ->
  path (run (q p) VNone (train_kwargs shape bd sd) s) ds (Ok o, s') -> wf_st s'.
Proof.
  intros Hs H. assert (Ho : returns (run (q p) VNone (train_kwargs shape bd sd)) s o s').
  { clear -H. unfold returns. remember (Ok o, s') as x. clear Heqx. induction H; econstructor; eassumption. }
  eapply run_returns_wf in Ho; [apply Ho|apply kws_wf|exact Hs].
Qed.

(** ** C71 Training optimises the objective, one step per iteration, and reports each iteration
    For a vsmc sampler with K steps (with or without resampling) over parameters [p]: when
    nvi_train returns after [iterations] iterations, it has called the sampler once more than
    that, first to size its arrays ([probe]) and then once per iteration; each iteration ran the
    sampler at the parameters the previous one left, and moved them by one optimizer step along
    the gradient of the mean of its own call's loss, counted from zero; row [i] of the returned
    losses holds the losses of the K annealing steps ([spine]) of iteration [i], innermost first,
    and row [i] of the effective sample sizes and log-evidences is computed, along the first
    dimension, from those steps' log weights. *)
Theorem C71_training (L : lib) (P G : Type) (W : torch_train L P G)
    (detach_dist : D L -> D L) (base K : nat) (targets forwards reverses : P -> list (inf L))
    (loss_fn : out L -> res (T L)) (avo resample : bool) (rs : resampler L) (q : P -> inf L)
    (sample_shape : pyval (T L)) (batch_dim sample_dims : Z) (iterations : nat)
    (p : P) (g : G) (s : st L) ds tr p' g' s' :
  (forall x, is_tensor L (detach L x) = is_tensor L x) ->
  (forall a b, is_tensor L (tadd L a b) = is_tensor L a || is_tensor L b) ->
  (forall o l, loss_fn o = Ok l -> is_tensor L l = true) ->
  (forall p, Forall is_prog (forwards p) /\ is_prog (hd (q p) (targets p)) /\
             length (forwards p) = K /\ length (reverses p) = K /\ length (targets p) = S K) -> K <> 0%nat ->
  (forall p, vsmc detach_dist base (targets p) (forwards p) (reverses p) loss_fn avo resample rs = Ok (q p)) ->
  wf_st s ->
  path (nvi_train W q sample_shape batch_dim sample_dims iterations p g s) ds (Ok tr, (p', g'), s') ->
  let call p' s' := run (q p') VNone [("sample_shape", sample_shape); ("batch_dim", VInt batch_dim);
                                      ("sample_dims", VInt sample_dims); ("_debug", VBool true)] s' in
  exists probe its,
    ds = probe ++ flat_map it_draws its /\
    (exists o s1, path (call p s) probe (Ok o, s1)) /\
    length its = iterations /\ linked p its p' /\
    length (tr_losses tr) = iterations /\ length (tr_ess tr) = iterations /\ length (tr_log_Z tr) = iterations /\
    forall i it, nth_error its i = Some it ->
      (exists s1 s2, path (call (it_before it) s1) (it_draws it) (Ok (it_result it), s2)) /\
      (exists l g, out_loss (it_result it) = Some l /\ tt_backward W (tt_mean W l) = Ok g /\
                   it_after it = tt_update W (it_before it) (tt_add W (tt_zero W) g)) /\
      (exists outs, length outs = K /\ SpecAnnealing.spine (it_result it) outs /\
         map Some (nth i (tr_losses tr) []) = map (fun x => option_map (detach L) (out_loss x)) outs /\
         nth i (tr_ess tr) [] = map (fun x => tt_ess W 0 (detach L (out_lw x))) outs /\
         nth i (tr_log_Z tr) [] = map (fun x => tt_log_Z W 0 (detach L (out_lw x))) outs).
Proof.
  intros Hd Ha Hl Hp HK Hq Hs H. cbn zeta. unfold nvi_train in H.
  apply path_tbind in H. destruct H as (d1 & d2 & [[o|e] s1] & -> & H1 & H2).
  2:{ apply path_leaf_inv in H2. destruct H2 as [_ H2]. discriminate. }
  assert (Hs1 : wf_st s1) by (eapply calls_wf; eassumption).
  destruct (get_stats o) as [sts0|e]; [|apply path_leaf_inv in H2; destruct H2 as [_ H2]; discriminate].
  apply path_tbind in H2. destruct H2 as (d3 & d4 & [[[[ls ws]|e] [p2 g2]] s2] & -> & H2 & H3).
  2:{ apply path_leaf_inv in H3. destruct H3 as [_ H3]. discriminate. }
  apply path_leaf_inv in H3. destruct H3 as [-> H3]. injection H3 as -> -> -> ->.
  apply (loop_did W q sample_shape batch_dim sample_dims wf_st (calls_wf q _ _ _)) in H2; [|exact Hs1]. destruct H2 as (its & -> & Hn & Hlk & Hl1 & Hl2 & H2).
  exists d1, its. rewrite app_nil_r. cbn [tr_losses tr_ess tr_log_Z]. rewrite !map_length.
  split; [reflexivity|]. split; [exists o, s1; exact H1|]. do 5 (split; [assumption|]).
  intros i it Hi. destruct (H2 i it Hi) as ((t1 & t2 & Ht & Hr) & Hu & (sts & Es & E1 & E2)).
  split; [exists t1, t2; exact Hr|]. split; [exact Hu|].
  destruct (Hp (it_before it)) as (Hf & Ht0 & E3 & E4 & E5).
  destruct (C42_stats_in_order L detach_dist base (targets (it_before it)) (forwards (it_before it)) (reverses (it_before it)) loss_fn avo resample rs
     (q (it_before it)) VNone (train_kwargs sample_shape batch_dim sample_dims) t1 (it_result it) t2)
    as (outs & sts' & Hlo & Hsp & _ & Est & _ & Elw & Elo & _); auto.
  - rewrite E3, E4, E5. lia.
  - apply kws_wf.
  - clear -Hr. unfold returns. remember (Ok (it_result it), t2) as x. clear Heqx. induction Hr; econstructor; eassumption.
  - assert (sts' = sts) by congruence. subst sts'. exists outs.
    split; [rewrite Hlo, E3, E4, E5; lia|]. split; [exact Hsp|]. rewrite E1. split; [exact Elo|].
    change (@nil (T L)) with (map (tt_ess W 0) []) at 1. rewrite map_nth.
    change (@nil (T L)) with (map (tt_log_Z W 0) []) at 2. rewrite map_nth. rewrite E2, Elw, !map_map. split; reflexivity.
Qed.
Print Assumptions C71_training.

(** ** One call of the sampler without resampling *)
Section Call.
  Context {L : lib} (HL : lib_laws L) {I : Type} (i0 : I) (vals : I -> T L -> R) (pb : problem L)
    (detach_dist : D L -> D L) (loss_fn : out L -> res (T L)) (avo : bool) (rs : resampler L) (base K : nat)
    (shape : pyval (T L)) (bd sd : Z) (q : inf L).
  Hypothesis HR : forall i, reads (vals i) (VInt sd) (VInt bd) pb.
  Hypothesis Hten : forall x, is_tensor L (detach L x) = is_tensor L x.
  Hypothesis Hlj : forall b pv, lj_ok L (VBool true) b pv = true.
  Hypothesis H1 : forall d v, tensor_equal L (logp L d v) (logp L (detach_dist d) v) = true.
  Hypothesis H2 : forall i d v, vals i (bsum L (VInt sd) (VInt bd) (logp L (detach_dist d) v)) = vals i (bsum L (VInt sd) (VInt bd) (logp L d v)).
  Hypothesis Hl' : forall o px, out_px o = Some px -> exists l, loss_fn o = Ok l.
  Hypothesis Hl2 : forall o l, loss_fn o = Ok l -> is_tensor L l = true.
  Hypothesis Hid : identities pb base K.
  Hypothesis HK : K <> 0%nat.
  Hypothesis Hq : vsmc detach_dist base (pb_targets pb K) (pb_forwards pb K) (pb_reverses pb K) loss_fn avo false rs = Ok q.
  Notation kws := (train_kwargs (L := L) shape bd sd).

  Lemma call_top s o s' : wf_st s -> returns (run q VNone kws) s o s' ->
    exists l, out_loss o = Some l /\ is_tensor L l = true /\ is_tensor L (out_lw o) = true.
  Proof.
    intros Hs H. pose proof Hq as Hq'. unfold vsmc in Hq'. cbn [pb_targets] in Hq'. injection Hq' as Eq.
    set (ts := map (fun k => target_prog (pb_oid_t pb k) (gname k) (pb_target pb k)) (seq 1 K)) in *.
    set (steps := combine (pb_forwards pb K) (combine (pb_reverses pb K) ts)) in *.
    assert (Hlen : length steps = K).
    { unfold steps, ts, pb_forwards, pb_reverses. rewrite !combine_length, !map_length, !seq_length. lia. }
    destruct (exists_last (l := steps)) as (st1 & [fwd [rev p]] & E1); [intros E; rewrite E in Hlen; cbn in Hlen; lia|].
    rewrite E1, loop_snoc in Eq. subst q. unfold vsmc_step in H. cbn [andb] in H.
    apply run_propose_returns in H; [|apply kws_wf|].
    2:{ intros qo s1 H0. eapply run_returns_wf in H0; [apply H0|apply wf_sub_kwargs, kws_wf|exact Hs]. }
    destruct H as (qo & s1 & po & s2 & qt & lu & mo & mt & tr & ptr & ttr & fw & l & H). cbn zeta in H.
    destruct H as (_ & _ & _ & _ & _ & _ & _ & _ & _ & _ & Htn & _ & _ & _ & Hlo & Eo).
    cbn [in_loss in_loss0 in_debug] in *. rewrite orb_true_r in Eo. cbn [add_subs with_loss out_subs app] in Eo.
    destruct (loss_fn _) as [l0|e] eqn:El; cbn [rmap] in Hlo; [|discriminate]. injection Hlo as <-.
    assert (Et : is_tensor L l0 = true) by exact (Hl2 _ _ El).
    rewrite Eo. cbn [out_lw out_loss out_px with_loss]. eexists. split; [reflexivity|]. 
    split; [|rewrite Hten; exact Htn]. rewrite (rd_tensor_add _ _ _ _ (HR i0)), Et. reflexivity.
  Qed.

  Lemma call_good s : clean s -> same_draws (fun x zs => length zs = S K /\ exists o s' sts l, x = (Ok o, s') /\ clean s' /\
      get_stats o = Ok sts /\ length (st_lw sts) = K /\
      (forall i k, (1 <= k <= K)%nat -> vals i (nth (k - 1) (st_lw sts) (tzero L)) = ais_weight (vals i) (VInt sd) (VInt bd) pb k (firstn (S k) zs)) /\
      out_loss o = Some l /\ is_tensor L l = true /\ is_tensor L (out_lw o) = true)
    (run q VNone kws s) (chain pb shape K).
  Proof.
    intros Hs.
    assert (Gd : same_draws (fun x zs => forall i, good (VInt sd) (VInt bd) (vals i) pb K x zs)
                  (run q VNone kws s) (chain pb shape K)).
    { apply (sd_all _ i0). intros i.
      destruct (identities_wlog pb base K Hid) as (base' & t & r' & Ho1 & Ho2 & Ho3 & E). rewrite <- (chain_relabel pb t r').
      change shape with (kwarg (L := L) "sample_shape" (VTup [VInt 1; VInt 1]) kws) at 2.
      apply (vsmc_good HL _ _ _ Hlj (vals i) (relabel pb t r') (reads_relabel _ _ _ _ t r' (HR i)) detach_dist H1 (H2 i) loss_fn Hl' avo rs base' Ho1 Ho2 Ho3 K VNone kws s q).
      - repeat split. apply kws_wf.
      - exact Hs.
      - rewrite E. exact Hq. }
    eapply sd_impl; [|eapply sd_outcome_and; [exact Gd|intros x Hx; exact Hx]].
    intros x zs [HG Hx].
    destruct (HG i0) as (r & w & v & (Hlen & _ & _ & _) & (o & s' & -> & Hc' & _) & _).
    assert (Hws : wf_st s) by (intros j tr E; rewrite Hs in E; discriminate).
    destruct (call_top s o s' Hws Hx) as (l & Eol & Etl & Etw).
    destruct (C42_stats_in_order L detach_dist base (pb_targets pb K) (pb_forwards pb K) (pb_reverses pb K) loss_fn avo false rs q VNone kws s o s')
      as (outs & sts & Hlo & Hsp & _ & Est & _ & Elw & Elo & Epr & _); auto.
    { exact (rd_tensor_add _ _ _ _ (HR i0)). }
    { unfold pb_forwards. apply Forall_forall. intros f Hf. apply in_map_iff in Hf. destruct Hf as (k & <- & _). exact Logic.I. }
    { cbn. exact Logic.I. }
    { unfold pb_forwards, pb_reverses, pb_targets. cbn [length]. rewrite !map_length, !seq_length. lia. }
    { apply kws_wf. }
    assert (EK : length outs = K).
    { rewrite Hlo. unfold pb_forwards, pb_reverses, pb_targets. cbn [length]. rewrite !map_length, !seq_length. lia. }
    split; [exact Hlen|]. exists o, s', sts, l. split; [reflexivity|]. split; [exact Hc'|]. split; [exact Est|].
    split; [rewrite Elw, map_length; exact EK|]. split; [|auto].
    intros i k Hk. rewrite Elw. destruct (nth_error outs (k - 1)) as [y|] eqn:Ey; [|apply nth_error_None in Ey; lia].
    erewrite nth_error_nth; [|rewrite nth_error_map, Ey; reflexivity].
    destruct (HG i) as (_ & _ & _ & _ & _ & (o' & outs' & Eo & _ & Hsp' & Hr)). cbn [fst] in Eo. injection Eo as <-.
    rewrite (spine_unique _ _ Hsp _ Hsp') in Ey. destruct (Hr _ _ Ey) as [_ E4]. replace (S (k - 1)) with k in E4 by lia.
    rewrite (rd_detach _ _ _ _ (HR i)). exact E4.
  Qed.
End Call.

(** ** C71, without resampling and on a batch of one
    For every family of annealing problems [pb p] over the parameters: training for any number of
    iterations never raises; each iteration draws one chain of the Markov chain at its own
    parameters, and the effective sample sizes and log-evidences it reports are those of the
    importance weights of that chain at those parameters, one per intermediate target. *)
Theorem C71_weights (L : lib) (HL : lib_laws L) (P G : Type) (W : torch_train L P G) (I : Type) (i0 : I) (vals : I -> T L -> R)
    (pb : P -> problem L) (detach_dist : D L -> D L) (loss_fn : out L -> res (T L)) (avo : bool) (rs : resampler L) (base K : nat)
    (sample_shape : pyval (T L)) (batch_dim sample_dims : Z) (q : P -> inf L) (iterations : nat) (p : P) (g : G) (s : st L) ds x :
  let sd := VInt sample_dims in let bd := VInt batch_dim in
  (forall p i, reads (vals i) sd bd (pb p)) ->
  (forall x, is_tensor L (detach L x) = is_tensor L x) ->
  (forall b pv, lj_ok L (VBool true) b pv = true) ->
  (forall d v, tensor_equal L (logp L d v) (logp L (detach_dist d) v) = true) ->
  (forall i d v, vals i (bsum L sd bd (logp L (detach_dist d) v)) = vals i (bsum L sd bd (logp L d v))) ->
  (forall o px, out_px o = Some px -> exists l, loss_fn o = Ok l) -> (forall o l, loss_fn o = Ok l -> is_tensor L l = true) ->
  (forall p, identities (pb p) base K) -> K <> 0%nat -> clean s ->
  (forall p, vsmc detach_dist base (pb_targets (pb p) K) (pb_forwards (pb p) K) (pb_reverses (pb p) K) loss_fn avo false rs = Ok (q p)) ->
  (forall l, is_tensor L l = true -> exists g, tt_backward W (tt_mean W l) = Ok g) ->
  (forall w, tt_one_element W (tt_mean W w) = true /\ tt_one_element W (tt_ess W sample_dims w) = true /\
             tt_one_element W (tt_log_Z W sample_dims w) = true) ->
  path (nvi_train W q sample_shape batch_dim sample_dims iterations p g s) ds x ->
  exists tr p' g' s' probe its, x = (Ok tr, (p', g'), s') /\
    ds = probe ++ flat_map it_draws its /\ length its = iterations /\ linked p its p' /\
    (exists zs, path (chain (pb p) sample_shape K) probe zs) /\
    forall j it, nth_error its j = Some it ->
      exists zs lws, path (chain (pb (it_before it)) sample_shape K) (it_draws it) zs /\ length lws = K /\
        (forall i k, (1 <= k <= K)%nat -> vals i (nth (k - 1) lws (tzero L)) = ais_weight (vals i) sd bd (pb (it_before it)) k (firstn (S k) zs)) /\
        nth j (tr_ess tr) [] = map (tt_ess W 0) lws /\ nth j (tr_log_Z tr) [] = map (tt_log_Z W 0) lws.
Proof.
  cbn zeta. intros HR Hten Hlj H1 H2 Hl' Hlt Hid HK Hs Hq Hb Hone H.
  pose proof (fun p' s' => call_good HL i0 vals (pb p') detach_dist loss_fn avo rs base K sample_shape batch_dim sample_dims (q p')
                 (HR p') Hten Hlj H1 H2 Hl' Hlt (Hid p') HK (Hq p') s') as C.
  set (kws := train_kwargs (L := L) sample_shape batch_dim sample_dims) in *.
  assert (HInv : forall p s ds o s', clean s -> path (run (q p) VNone kws s) ds (Ok o, s') -> clean s').
  { intros p1 s1 d1 o1 s1' Hc Hp. destruct (sd_path _ _ _ (C p1 s1 Hc) _ _ Hp) as (zs & _ & _ & (o & s' & sts & l & E & Hc' & _)).
    injection E as -> ->. exact Hc'. }
  assert (Hstep : forall p g s ds x, clean s -> path (train_step W q sample_shape batch_dim sample_dims p g s) ds x ->
            exists rows p' g' s', x = (Ok rows, (p', g'), s') /\ clean s').
  { intros p1 g1 s1 d1 x1 Hc Hp. unfold train_step in Hp. apply path_tbind in Hp. destruct Hp as (e1 & e2 & y & -> & Hp1 & Hp2).
    destruct (sd_path _ _ _ (C p1 s1 Hc) _ _ Hp1) as (zs & _ & _ & (o & s' & sts & l & -> & Hc' & Est & _ & _ & Eol & Etl & Etw)).
    rewrite Eol, Etl, Etw in Hp2. cbn [negb] in Hp2. destruct (Hb l Etl) as (gl & Eb). rewrite Eb in Hp2. cbn zeta in Hp2.
    destruct (Hone l) as (O1 & _). destruct (Hone (out_lw o)) as (_ & O2 & O3). rewrite O1, O2, O3, Est in Hp2. cbn [andb rmap] in Hp2.
    apply path_leaf_inv in Hp2. destruct Hp2 as [_ ->]. do 4 eexists. split; [reflexivity|exact Hc']. }
  assert (Hloop : forall n p g s ds x, clean s -> path (train_loop W q sample_shape batch_dim sample_dims n p g s) ds x ->
            exists rows p' g' s', x = (Ok rows, (p', g'), s')).
  { induction n as [|n IH]; intros p1 g1 s1 d1 x1 Hc Hp; cbn [train_loop] in Hp.
    - apply path_leaf_inv in Hp. destruct Hp as [_ ->]. do 4 eexists. reflexivity.
    - apply path_tbind in Hp. destruct Hp as (e1 & e2 & y & -> & Hp1 & Hp2).
      destruct (Hstep _ _ _ _ _ Hc Hp1) as ([rl rw] & p2 & g2 & s2 & -> & Hc2).
      apply path_tbind in Hp2. destruct Hp2 as (e3 & e4 & y & -> & Hp2 & Hp3).
      destruct (IH _ _ _ _ _ Hc2 Hp2) as ([ls ws] & p3 & g3 & s3 & ->).
      apply path_leaf_inv in Hp3. destruct Hp3 as [_ ->]. do 4 eexists. reflexivity. }
  unfold nvi_train in H. apply path_tbind in H. destruct H as (d1 & d2 & y & -> & Hp1 & Hp2). fold kws in Hp1.
  destruct (sd_path _ _ _ (C p s Hs) _ _ Hp1) as (zs0 & Hz0 & _ & (o & s1 & sts & l & -> & Hc1 & Est & _)).
  rewrite Est in Hp2. apply path_tbind in Hp2. destruct Hp2 as (d3 & d4 & y & -> & Hp2 & Hp3).
  destruct (Hloop _ _ _ _ _ _ Hc1 Hp2) as ([ls ws] & p' & g' & s' & ->).
  apply path_leaf_inv in Hp3. destruct Hp3 as [-> ->].
  apply (loop_did W q sample_shape batch_dim sample_dims clean HInv) in Hp2; [|exact Hc1].
  destruct Hp2 as (its & -> & Hn & Hlk & Hl1 & Hl2 & Hdid).
  do 4 eexists. exists d1, its. split; [reflexivity|]. rewrite app_nil_r. split; [reflexivity|]. split; [exact Hn|]. split; [exact Hlk|].
  split; [exists zs0; exact Hz0|]. intros j it Hj.
  destruct (Hdid j it Hj) as ((t1 & t2 & Ht & Hr) & _ & (sts' & Es & _ & E2)).
  destruct (sd_path _ _ _ (C (it_before it) t1 Ht) _ _ Hr) as (zs & Hz & _ & (o' & s'' & sts2 & l' & E & _ & Est' & Elen & Ew & _)).
  injection E as <- <-. assert (sts2 = sts') by congruence. subst sts2.
  exists zs, (st_lw sts'). split; [exact Hz|]. split; [exact Elen|]. split; [exact Ew|]. cbn [tr_ess tr_log_Z].
  change (@nil (T L)) with (map (tt_ess W 0) []) at 1. rewrite map_nth.
  change (@nil (T L)) with (map (tt_log_Z W 0) []) at 2. rewrite map_nth. rewrite E2. split; reflexivity.
Qed.
Print Assumptions C71_weights.

(** ** C71, on a larger batch: refuted
    The progress display of nvi_train takes [.item()] of the effective sample size, one number
    per batch element.  With more than one, for every sampler the first iteration changes the
    parameters and then raises ValueError: no training of at least one iteration returns. *)
Theorem C71_batch_refuted (L : lib) (HL : lib_laws L) (P G : Type) (W : torch_train L P G) (I : Type) (i0 : I) (vals : I -> T L -> R)
    (pb : P -> problem L) (detach_dist : D L -> D L) (loss_fn : out L -> res (T L)) (avo : bool) (rs : resampler L) (base K : nat)
    (sample_shape : pyval (T L)) (batch_dim sample_dims : Z) (q : P -> inf L) (iterations : nat) (p : P) (g : G) (s : st L) ds x :
  let sd := VInt sample_dims in let bd := VInt batch_dim in
  (forall p i, reads (vals i) sd bd (pb p)) ->
  (forall x, is_tensor L (detach L x) = is_tensor L x) ->
  (forall b pv, lj_ok L (VBool true) b pv = true) ->
  (forall d v, tensor_equal L (logp L d v) (logp L (detach_dist d) v) = true) ->
  (forall i d v, vals i (bsum L sd bd (logp L (detach_dist d) v)) = vals i (bsum L sd bd (logp L d v))) ->
  (forall o px, out_px o = Some px -> exists l, loss_fn o = Ok l) -> (forall o l, loss_fn o = Ok l -> is_tensor L l = true) ->
  (forall p, identities (pb p) base K) -> K <> 0%nat -> clean s ->
  (forall p, vsmc detach_dist base (pb_targets (pb p) K) (pb_forwards (pb p) K) (pb_reverses (pb p) K) loss_fn avo false rs = Ok (q p)) ->
  (forall l, is_tensor L l = true -> exists g, tt_backward W (tt_mean W l) = Ok g) ->
  (forall w, tt_one_element W (tt_ess W sample_dims w) = false) -> iterations <> 0%nat ->
  path (nvi_train W q sample_shape batch_dim sample_dims iterations p g s) ds x ->
  exists l gl g' s', tt_backward W (tt_mean W l) = Ok gl /\
    x = (Err ValueError, (tt_update W p (tt_add W (tt_zero W) gl), g'), s').
Proof.
  cbn zeta. intros HR Hten Hlj H1 H2 Hl' Hlt Hid HK Hs Hq Hb Hone HN H.
  pose proof (fun p' s' => call_good HL i0 vals (pb p') detach_dist loss_fn avo rs base K sample_shape batch_dim sample_dims (q p')
                 (HR p') Hten Hlj H1 H2 Hl' Hlt (Hid p') HK (Hq p') s') as C.
  unfold nvi_train in H. apply path_tbind in H. destruct H as (d1 & d2 & y & -> & Hp1 & Hp2).
  destruct (sd_path _ _ _ (C p s Hs) _ _ Hp1) as (zs0 & Hz0 & _ & (o & s1 & sts & l & -> & Hc1 & Est & _)).
  rewrite Est in Hp2. apply path_tbind in Hp2. destruct Hp2 as (d3 & d4 & y & -> & Hp2 & Hp3).
  destruct iterations as [|n]; [congruence|]. cbn [train_loop] in Hp2.
  apply path_tbind in Hp2. destruct Hp2 as (d5 & d6 & z & -> & Hp2 & Hp4).
  unfold train_step in Hp2. apply path_tbind in Hp2. destruct Hp2 as (d7 & d8 & w & -> & Hp2 & Hp5).
  destruct (sd_path _ _ _ (C p s1 Hc1) _ _ Hp2) as (zs & _ & _ & (o' & s2 & sts' & l' & -> & Hc2 & Est' & _ & _ & Eol & Etl & Etw)).
  rewrite Eol, Etl, Etw in Hp5. cbn [negb] in Hp5. destruct (Hb l' Etl) as (gl & Eb). rewrite Eb in Hp5. cbn zeta in Hp5.
  rewrite Hone, andb_false_r in Hp5. cbn [andb] in Hp5. apply path_leaf_inv in Hp5. destruct Hp5 as [_ ->].
  apply path_leaf_inv in Hp4. destruct Hp4 as [_ ->]. apply path_leaf_inv in Hp3. destruct Hp3 as [_ ->].
  exists l', gl. do 2 eexists. split; [exact Eb|reflexivity].
Qed.
Print Assumptions C71_batch_refuted.

(** A family of problems over an integer parameter, which moves the forward kernels; "gradients"
    are the loss values and a step subtracts them.  It meets the hypotheses, and two iterations of
    it run: the second one is made at other parameters. *)
Definition train_problem (p : Z) : problem ZL :=
  @mkProblem ZL 0%Z false (pb_target zproblem) (fun _ v => (zpoint v + p)%Z) (fun _ => true)
    (pb_rev zproblem) (fun _ => false) (pb_oid_t zproblem) (pb_oid_f zproblem) (pb_oid_r zproblem).
Definition train_vsmc (p : Z) : res (inf ZL) :=
  vsmc (L := ZL) (fun d => d) 8 (pb_targets (train_problem p) 2) (pb_forwards (train_problem p) 2) (pb_reverses (train_problem p) 2)
    (fun o => Ok (true, snd (fst (out_lw o)), snd (out_lw o))) false false zrs.
Definition train_sampler (p : Z) : inf ZL := match train_vsmc p with Ok q => q | Err _ => P_z end.
Definition train_torch (one : bool) : torch_train ZL Z Z :=
  @mkTorch ZL Z Z (fun _ w => w) (fun _ w => w) (fun l => l) (fun _ => one) 0%Z Z.add (fun l => Ok (zpoint l)) Z.sub.
Example C71_hypotheses :
  (forall p (i : unit), reads ((fun _ => zval) i) (VInt 0) (VInt 1) (train_problem p)) /\
  (forall x, is_tensor ZL (detach ZL x) = is_tensor ZL x) /\ (forall b pv, lj_ok ZL (VBool true) b pv = true) /\
  (forall d v, tensor_equal ZL (logp ZL d v) (logp ZL d v) = true) /\
  (forall p, identities (train_problem p) 8 2) /\ (forall p, train_vsmc p = Ok (train_sampler p)) /\ clean (st0 ZL) /\
  (forall l, exists g, tt_backward (train_torch true) (tt_mean (train_torch true) l) = Ok g) /\
  (forall p, Forall is_prog (pb_forwards (train_problem p) 2) /\ is_prog (hd P_z (pb_targets (train_problem p) 2))) /\ wf_st (st0 ZL).
Proof.
  destruct C65_hypotheses as (H1 & H2 & H3 & H4).
  split. { intros p []. destruct (H1 tt). constructor; try assumption. intros k [[tx x] gx] [[ta a] ga]. reflexivity. }
  split; [exact H2|]. split; [exact H3|]. split; [exact H4|].
  split. { intros p. unfold identities; cbn [train_problem zproblem pb_oid_t pb_oid_r]; repeat split; intros k Hk; lia. }
  split; [reflexivity|]. split; [intros i; reflexivity|]. split; [intros l; eexists; reflexivity|].
  split; [intros p; split; [repeat constructor|exact Logic.I]|]. intros i t E. discriminate E.
Qed.
Definition train_seen {B} (x : option (list (draw_kind ZL * T ZL) * (res (training ZL) * (Z * Z) * st ZL))) (f : res (training ZL) -> Z -> B) : option B :=
  match x with Some (_, (r, (p, _), _)) => Some (f r p) | None => None end.
Lemma train_by {B} t vs (f : res (training ZL) -> Z -> B) b : train_seen (walkd t vs) f = Some b ->
  exists ds r p g s', path t ds (r, (p, g), s') /\ f r p = b.
Proof.
  destruct (walkd t vs) as [[ds [[r [p g]] s']]|] eqn:E; intros H; [|discriminate].
  exists ds, r, p, g, s'. split; [apply (walkd_path _ _ _ _ E)|]. injection H. intros; assumption.
Qed.
Definition zpoints (l : list (list (T ZL))) : list (list Z) := map (map zpoint) l.
Definition train_run (one : bool) := nvi_train (train_torch one) train_sampler (VTup [VInt 1; VInt 1]) 1 0 2 3%Z 7%Z (st0 ZL).
Example C71_case : exists ds r p' g' s', path (train_run true) ds (r, (p', g'), s') /\
  match r with Ok tr => Some (zpoints (tr_losses tr), zpoints (tr_ess tr), p') | _ => None end
  = Some ([[-25; -28]; [815; 2660]], [[-25; -3]; [815; 1845]], 3 - (-28) - 2660)%Z.
Proof.
  apply train_by with (vs := [zten 0; zten 1; zten 2; zten 1; zten 3; zten 2; zten 1; zten 3; zten 2])
    (f := fun r p' => match r with Ok tr => Some (zpoints (tr_losses tr), zpoints (tr_ess tr), p') | _ => None end).
  vm_compute. reflexivity.
Qed.
(** ... and on a batch: one step taken, then the exception *)
Example C71_batch_case : exists ds r p' g' s', path (train_run false) ds (r, (p', g'), s') /\
  (match r with Ok _ => None | Err e => Some e end, p') = (Some ValueError, 3 - (-28))%Z.
Proof.
  apply train_by with (vs := [zten 0; zten 1; zten 2; zten 1; zten 3; zten 2])
    (f := fun r p' => (match r with Ok _ => None | Err e => Some e end, p')).
  vm_compute. reflexivity.
Qed.
