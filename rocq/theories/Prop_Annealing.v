(** C41-C43: the annealing experiment. *)
From Coq Require Import Reals Lra.
From Verif Require Import Thm_Stats Instances.

(** C41. For every number of steps [K], every targets, kernels, keyword arguments, losses: the
    program built by vsmc (without resampling), run in a state in which nothing is conditioned,
    draws exactly the forward Markov chain, and on every chain returns a log-weight equal to
    log g_K(z_K) + sum of the reverse kernels' log-densities - log g_0(z_0) - sum of the forward
    kernels' log-densities.  [val] is any way of reading a number off a tensor. *)
Theorem C41_annealed_weight (L : lib) (HL : lib_laws L) (val : T L -> R) (pb : problem L) (detach_dist : D L -> D L)
    (loss_fn : out L -> res (T L)) (avo : bool) (rs : resampler L) (base K : nat) (c : pyval (T L)) (kws : dict (pyval (T L)))
    (s : st L) (q : inf L) :
  let sd := kwarg "sample_dims" VNone kws in
  let bd := kwarg "batch_dim" VNone kws in
  reads val sd bd pb ->
  (forall b pv, lj_ok L (kwarg "reparameterized" (VBool true) kws) b pv = true) ->
  (forall d v, tensor_equal L (logp L d v) (logp L (detach_dist d) v) = true) ->
  (forall d v, val (bsum L sd bd (logp L (detach_dist d) v)) = val (bsum L sd bd (logp L d v))) ->
  (forall o px, out_px o = Some px -> exists l, loss_fn o = Ok l) ->
  identities pb base K ->
  wf_dict kws -> clash ["self"; "c"; "fn"; "trace"] kws = false -> clean s ->
  vsmc detach_dist base (pb_targets pb K) (pb_forwards pb K) (pb_reverses pb K) loss_fn avo false rs = Ok q ->
  same_draws (fun x zs => length zs = S K /\ exists o s', x = (Ok o, s') /\ clean s' /\
                val (out_lw o) = ais_weight val sd bd pb K zs /\
                dkeys (out_trace o) = [gname K] /\ out_output o = VDict [(gname K, VTensor (carried zs K))])
    (run q c kws s) (chain pb (kwarg "sample_shape" (VTup [VInt 1; VInt 1]) kws) K).
Proof.
  cbn zeta. intros HR Hlj H1 H2 Hl Hid Hwf Hcl Hs Hq.
  destruct (identities_wlog pb base K Hid) as (base' & t & r' & Ho1 & Ho2 & Ho3 & E). rewrite <- E in Hq. rewrite <- (chain_relabel pb t r').
  eapply sd_impl; [|eapply (vsmc_good HL _ _ _ Hlj val (relabel pb t r') (reads_relabel _ _ _ _ t r' HR) detach_dist H1 H2 loss_fn Hl avo rs base' Ho1 Ho2 Ho3 K c kws s q); auto].
  - intros x zs (r & w & v & (Hlen & Hv & Hw & _) & (o & s' & -> & Hc' & Ht & _ & _ & Ho & Hlw) & _).
    split; [exact Hlen|]. exists o, s'. rewrite Hlw, Ht, Ho, Hv. repeat split; assumption.
  - repeat split; assumption.
Qed.
Print Assumptions C41_annealed_weight.

(** a problem over the integers meets the hypotheses: g_k(v) = -(k+1) v^2, kernels centred at
    the previous point *)
Definition zval (t : T ZL) : R := let '(_, v, _) := t in IZR v.
Definition zpoint (t : T ZL) : Z := let '(_, v, _) := t in v.
Definition zproblem : problem ZL :=
  @mkProblem ZL 0%Z false
    (fun k => TDens (L := ZL) (fun v => let '(_, a, g) := v in (true, (- (Z.of_nat k + 1) * (a * a))%Z, g)))
    (fun _ v => zpoint v) (fun _ => true) (fun _ v => (zpoint v + 1)%Z) (fun _ => false)
    (fun k => 3 * k) (fun k => 3 * k + 1) (fun k => 3 * k + 2).
Example C41_hypotheses : reads zval VNone VNone zproblem /\ forall K, identities zproblem (3 * K + 2) K.
Proof.
  split; [|intros K; unfold identities; cbn [zproblem pb_oid_t pb_oid_r]; repeat split; intros k Hk; lia].
  constructor; cbn; try reflexivity.
  - intros [[ta a] ga] [[tb b] gb]. cbn. apply plus_IZR.
  - intros [[ta a] ga] [[tb b] gb]. cbn. apply minus_IZR.
  - intros [[ta a] ga]. reflexivity.
  - intros d [[ta a] ga]. reflexivity.
  - intros k [[ta a] ga]. reflexivity.
  - intros k [[tx x] gx] [[ta a] ga]. reflexivity.
  - intros [[ta a] ga] [[tb b] gb]. reflexivity.
  - intros [[ta a] ga] [[tb b] gb]. reflexivity.
  - intros d [[ta a] ga]. reflexivity.
Qed.
(** ... and two steps of it really run, with the expected weight: chain 1, 3, 2 *)
Definition zrs : resampler ZL := mkRS (L := ZL) sig_model (fun tr lw _ => Leaf (Ok (tr, lw))).
Definition zvsmc (K : nat) (resample : bool) : res (inf ZL) :=
  vsmc (L := ZL) (fun d => d) (3 * K + 2) (pb_targets zproblem K) (pb_forwards zproblem K) (pb_reverses zproblem K)
    (fun o => Ok (out_lw o)) false resample zrs.
Example C41_case : exists q o s', zvsmc 2 false = Ok q /\
  returns (run q VNone []) (st0 ZL) o s' /\
  out_lw o = (true, (- 3 * (2 * 2) + (- ((1 - 4) * (1 - 4)) + - ((3 - 3) * (3 - 3)))
                     - (- (1 * 1)) - (- ((3 - 1) * (3 - 1)) + - ((2 - 3) * (2 - 3))))%Z, 0%Z).
Proof.
  eexists. destruct (seen_by (run (L := ZL) (match zvsmc 2 false with Ok q => q | Err _ => P_z end) VNone []) (st0 ZL)
     [zten 1; zten 3; zten 2] (fun o _ => out_lw o) (true, -15, 0)%Z) as (o & s' & H & E); [vm_compute; reflexivity|].
  exists o, s'. split; [reflexivity|]. split; [exact H|]. rewrite E. reflexivity.
Qed.

(** C42. Whatever programs are given to vsmc, whatever a run of the result draws: get_stats of a
    returned result has one entry per annealing step, innermost first.  [outs] are the results of
    the steps: they are chained ([spine]), the [i]-th is the Propose with index [i]; the lists of
    get_stats are read off them.  With resampling the call must be made with a truthy [_debug]
    (C42_needs_debug). *)
Theorem C42_stats_in_order (L : lib) (detach_dist : D L -> D L) (base : nat) (targets forwards reverses : list (inf L))
    (loss_fn : out L -> res (T L)) (avo resample : bool) (rs : resampler L) (q : inf L) (c : pyval (T L))
    (kws : dict (pyval (T L))) (s : st L) (o : out L) (s' : st L) :
  let K := Nat.min (length forwards) (Nat.min (length reverses) (length targets - 1)) in
  (forall x, is_tensor L (detach L x) = is_tensor L x) ->
  (forall a b, is_tensor L (tadd L a b) = is_tensor L a || is_tensor L b) ->
  (forall o l, loss_fn o = Ok l -> is_tensor L l = true) ->
  Forall is_prog forwards -> is_prog (hd q targets) -> K <> 0%nat ->
  wf_dict kws -> wf_st s ->
  resample = false \/ truthy (kwarg "_debug" (VBool false) kws) = true ->
  vsmc detach_dist base targets forwards reverses loss_fn avo resample rs = Ok q ->
  returns (run q c kws) s o s' ->
  exists outs stats,
    length outs = K /\ SpecAnnealing.spine o outs /\
    (forall i x, nth_error outs i = Some x -> out_type x = TyPropose /\ out_ix x = Some (VInt (Z.of_nat i))) /\
    get_stats o = Ok stats /\
    st_out stats = outs /\
    st_lw stats = map (fun x => detach L (out_lw x)) outs /\
    map Some (st_loss stats) = map (fun x => option_map (detach L) (out_loss x)) outs /\
    map Some (st_proposal stats) = map (fun x => option_map px_proposal_trace (out_px x)) outs /\
    map Some (st_target stats) = map (fun x => option_map px_target_trace (out_px x)) outs.
Proof.
  cbn zeta. intros Hd Ha Hl Hf Ht HK Hk Hs Hdb Hq H. unfold vsmc in Hq. destruct targets as [|t0 ts]; [discriminate|].
  injection Hq as <-. cbn [hd] in Ht. cbn [length] in HK. rewrite Nat.sub_succ, Nat.sub_0_r in HK.
  set (steps := combine forwards (combine reverses ts)) in *.
  assert (Hlen : length steps = Nat.min (length forwards) (Nat.min (length reverses) (length ts))).
  { unfold steps. rewrite !combine_length. reflexivity. }
  destruct (loop_spined detach_dist loss_fn avo resample rs base (length forwards) c steps) with (k := 0%nat) (q := t0) (kws := kws) (s := s) (o := o) (s' := s')
    as (outs & (H1 & H2 & H3 & _ & H5 & _) & _); auto.
  - intros [f x] Hx. apply in_combine_l in Hx. rewrite Forall_forall in Hf. apply Hf, Hx.
  - intros kws0 s0 o0 s0' _ _ _ H0. exists []. apply prog_type in H0; [|exact Ht].
    split; [reflexivity|]. split; [intros i x Hx; destruct i; discriminate|]. split; [apply SpecAnnealing.spine_start, H0|].
    split; [auto|]. split; intros E; exfalso; apply E; reflexivity.
  - cbn [plus] in *. destruct (stats_of outs Hd Ha loss_fn Hl H2) as (f & F0 & F1 & F2 & F3 & F4 & F5).
    assert (HK' : length steps <> 0%nat) by congruence. destruct (H5 HK') as [_ H6].
    exists outs. unfold get_stats. rewrite (H6 _ stats_entry f [] F0). cbn [rbind]. rewrite app_nil_r.
    destruct outs as [|o1 outs]; [cbn in H1; congruence|]. cbn [map]. eexists.
    split; [cbn [length] in *; rewrite H1, Nat.sub_succ, Nat.sub_0_r; exact Hlen|]. split; [exact H3|].
    split; [intros i x Hx; destruct (H2 i x Hx) as (E1 & E2 & _); auto|].
    split; [reflexivity|]. cbn [st_out st_lw st_loss st_proposal st_target].
    repeat split.
    + rewrite F5, map_map. f_equal. rewrite <- (map_id outs) at 2. apply map_ext. intros x. apply F5.
    + rewrite F1, map_map. f_equal. apply map_ext. intros x. apply F1.
    + cbn [map]. rewrite F2 by (left; reflexivity). rewrite !map_map. f_equal. apply map_ext_in. intros x Hx. apply F2. right; exact Hx.
    + cbn [map]. rewrite F3 by (left; reflexivity). rewrite !map_map. f_equal. apply map_ext_in. intros x Hx. apply F3. right; exact Hx.
    + cbn [map]. rewrite F4 by (left; reflexivity). rewrite !map_map. f_equal. apply map_ext_in. intros x Hx. apply F4. right; exact Hx.
Qed.
Print Assumptions C42_stats_in_order.

(** ... with resampling but a falsy [_debug] at the call, the statistics are not available: the
    result of a Resample holds no reference to the step below. *)
Theorem C42_needs_debug (L : lib) (detach_dist : D L -> D L) (base : nat) (targets forwards reverses : list (inf L))
    (loss_fn : out L -> res (T L)) (avo : bool) (rs : resampler L) (q : inf L) (c : pyval (T L))
    (kws : dict (pyval (T L))) (s : st L) (o : out L) (s' : st L) :
  (forall x, is_tensor L (detach L x) = is_tensor L x) ->
  (forall a b, is_tensor L (tadd L a b) = is_tensor L a || is_tensor L b) ->
  (forall o l, loss_fn o = Ok l -> is_tensor L l = true) ->
  Forall is_prog forwards -> (2 <= length forwards)%nat ->
  length reverses = length forwards -> length targets = S (length forwards) ->
  wf_dict kws -> wf_st s -> truthy (kwarg "_debug" (VBool false) kws) = false ->
  vsmc detach_dist base targets forwards reverses loss_fn avo true rs = Ok q ->
  returns (run q c kws) s o s' -> get_stats o = Err AttributeError.
Proof.
  intros Hd Ha Hl Hf HK Hr Ht Hk Hs Hdb Hq H. unfold vsmc in Hq. destruct targets as [|t0 ts]; [discriminate|].
  injection Hq as <-. cbn [length] in Ht. injection Ht as Ht.
  set (steps := combine forwards (combine reverses ts)) in *.
  assert (Hlen : length steps = length forwards).
  { unfold steps. rewrite !combine_length. lia. }
  assert (Hfp : forall x, In x steps -> is_prog (fst x)).
  { intros [f x] Hx. apply in_combine_l in Hx. rewrite Forall_forall in Hf. apply Hf, Hx. }
  destruct (exists_last (l := steps)) as (st1 & [fwd [rev p]] & E1); [intros E; rewrite E in Hlen; cbn in Hlen; lia|].
  rewrite E1, app_length in Hlen. cbn [length] in Hlen.
  destruct (exists_last (l := st1)) as (st2 & [fwd2 [rev2 p2]] & E2); [intros E; rewrite E in Hlen; cbn in Hlen; lia|].
  rewrite E1, loop_snoc in H. subst st1. rewrite loop_snoc in H. rewrite app_length in *. cbn [length plus] in *.
  unfold vsmc_step at 2 in H. replace (true && (length st2 <? length forwards - 1)%nat) with true in H.
  2:{ cbn [andb]. symmetry. apply Nat.ltb_lt. lia. }
  assert (Er : forall f r p q0, vsmc_step detach_dist loss_fn avo true rs base (length forwards) (length st2 + 1) f r p q0
             = vsmc_step detach_dist loss_fn avo false rs base (length forwards) (length st2 + 1) f r p q0).
  { intros. unfold vsmc_step. replace (length st2 + 1 <? length forwards - 1)%nat with false; [reflexivity|]. symmetry. apply Nat.ltb_ge. lia. }
  rewrite Er in H.
  assert (He : exists a, stats_entry o = Ok a).
  { clear Hfp. unfold vsmc_step in H. cbn [andb] in H. apply run_propose_returns in H; [|exact Hk|].
    2:{ intros qo s1 H0. eapply run_returns_wf in H0; [apply H0|apply wf_sub_kwargs, Hk|exact Hs]. }
    destruct H as (qo & s1 & po & s2 & qt & lu & mo & mt & tr & ptr & ttr & fw & l & H). cbn zeta in H.
    destruct H as (_ & _ & _ & _ & _ & _ & _ & _ & _ & _ & Hten & _ & _ & _ & Hlo & Eo).
    cbn [in_loss in_loss0 in_debug] in *. rewrite orb_true_r in Eo. cbn [add_subs with_loss out_subs app] in Eo.
    destruct (loss_fn _) as [l0|e] eqn:El; cbn [rmap] in Hlo; [|discriminate]. injection Hlo as <-.
    unfold stats_entry, detach_attr. rewrite Eo. cbn [out_lw out_loss out_px with_loss].
    rewrite Hd, Hten. cbn [rbind]. rewrite Ha, (Hl _ _ El). cbn [orb rbind]. eexists. reflexivity. }
  unfold get_stats.
  rewrite (step_hidden _ _ _ _ _ _ _ _ _ _ _ _ _ _ _ _ _ _ _ (Hfp _ (in_or_app _ _ _ (or_intror (or_introl eq_refl)))) Hk Hs Hdb H _ stats_entry [] He) ||
  (erewrite step_hidden; [|eapply (Hfp (fwd, (rev, p))); rewrite E1; apply in_or_app; right; left; reflexivity|exact Hk|exact Hs|exact Hdb|exact H|exact He]).
  reflexivity.
Qed.
Print Assumptions C42_needs_debug.

(** ... and without any step the traversal fails: it evaluates a name that does not exist. *)
Theorem C42_no_steps (L : lib) (detach_dist : D L -> D L) (base : nat) (t0 : inf L) (forwards reverses : list (inf L))
    (loss_fn : out L -> res (T L)) (avo resample : bool) (rs : resampler L) (q : inf L) (c : pyval (T L))
    (kws : dict (pyval (T L))) (s : st L) (o : out L) (s' : st L) :
  is_prog t0 ->
  vsmc detach_dist base [t0] forwards reverses loss_fn avo resample rs = Ok q ->
  returns (run q c kws) s o s' -> get_stats o = Err NameError.
Proof.
  intros Ht Hq H. unfold vsmc in Hq. injection Hq as <-.
  replace (combine forwards (combine reverses [])) with (@nil (inf L * (inf L * inf L))) in H.
  2:{ symmetry. destruct reverses; destruct forwards; reflexivity. }
  cbn [vsmc_loop] in H. apply prog_type in H; [|exact Ht]. unfold get_stats. rewrite traverse_eq, H. reflexivity.
Qed.
Print Assumptions C42_no_steps.

(** four statistics of a run with resampling and debug, in order *)
Example C42_case : exists q o s' sts, zvsmc 4 true = Ok q /\
  returns (run q VNone [("_debug", VBool true)]) (st0 ZL) o s' /\ get_stats o = Ok sts /\
  map (fun x => out_ix x) (st_out sts) = map (fun i => Some (VInt i)) [0; 1; 2; 3]%Z.
Proof.
  eexists.
  destruct (seen_by (run (L := ZL) (match zvsmc 4 true with Ok q => q | Err _ => P_z end) VNone [("_debug", VBool true)]) (st0 ZL)
     [zten 1; zten 3; zten 2; zten 5; zten 4] (fun o _ => match get_stats o with Ok sts => map (fun x => out_ix x) (st_out sts) | _ => [] end)
     (map (fun i => Some (VInt i)) [0; 1; 2; 3]%Z)) as (o & s' & H & E); [vm_compute; reflexivity|].
  destruct (get_stats o) as [sts|e] eqn:Es; [|discriminate].
  exists o, s', sts. split; [reflexivity|]. split; [exact H|]. split; [exact Es|]. exact E.
Qed.

(** the laws asked of tensors hold in ZL, the programs are programs *)
Example C42_hypotheses :
  (forall x, is_tensor ZL (detach ZL x) = is_tensor ZL x) /\
  (forall a b, is_tensor ZL (tadd ZL a b) = is_tensor ZL a || is_tensor ZL b) /\
  Forall is_prog (pb_forwards zproblem 4) /\ is_prog (hd P_z (pb_targets zproblem 4)).
Proof.
  split; [intros [[[] ?] ?]; reflexivity|]. split; [intros [[[] ?] ?] [[[] ?] ?]; reflexivity|].
  split; [repeat constructor|exact I].
Qed.
(** the same run without debug, and a run without steps *)
Example C42_needs_debug_case : exists q o s', zvsmc 4 true = Ok q /\
  returns (run q VNone []) (st0 ZL) o s' /\ get_stats o = Err AttributeError.
Proof.
  eexists.
  destruct (seen_by (run (L := ZL) (match zvsmc 4 true with Ok q => q | Err _ => P_z end) VNone []) (st0 ZL)
     [zten 1; zten 3; zten 2; zten 5; zten 4] (fun o _ => match get_stats o with Err e => Some e | _ => None end)
     (Some AttributeError)) as (o & s' & H & E); [vm_compute; reflexivity|].
  destruct (get_stats o) as [sts|e] eqn:Es; [discriminate|]. injection E as ->.
  exists o, s'. split; [reflexivity|]. split; [exact H|exact Es].
Qed.
Example C42_no_steps_case : exists q o s', zvsmc 0 true = Ok q /\
  returns (run q VNone []) (st0 ZL) o s' /\ get_stats o = Err NameError.
Proof.
  eexists.
  destruct (seen_by (run (L := ZL) (match zvsmc 0 true with Ok q => q | Err _ => P_z end) VNone []) (st0 ZL)
     [zten 1] (fun o _ => match get_stats o with Err e => Some e | _ => None end)
     (Some NameError)) as (o & s' & H & E); [vm_compute; reflexivity|].
  destruct (get_stats o) as [sts|e] eqn:Es; [discriminate|]. injection E as ->.
  exists o, s'. split; [reflexivity|]. split; [exact H|exact Es].
Qed.

(** C43, as stated, is false: the names excluded from the copy are those that are *substrings* of
    g{ix+1}. With ix = 9 the node g1 is dropped because "g1" is a substring of "g10". *)
Theorem C43_only_forward_node_refuted : exists (tr : trace ZL) ix tr' a,
  wf_dict tr /\ stl_trace (fun d => d) tr ix = Ok tr' /\ a <> gname_z (ix + 1) /\ dget a tr <> None /\ dget a tr' = None.
Proof.
  exists [("g1", node 1); ("g10", node 2)], 9%Z. eexists. exists "g1".
  split; [repeat constructor; cbn; intuition discriminate|]. split; [reflexivity|].
  split; [vm_compute; discriminate|]. split; [discriminate|reflexivity].
Qed.
Print Assumptions C43_only_forward_node_refuted.

(** What it does on every trace: g{ix+1} gets the same value under the detached distribution;
    every other name that is a substring of g{ix+1} disappears; everything else is unchanged. *)
Theorem C43_exactly (L : lib) (detach_dist : D L -> D L) (tr : trace L) ix tr' :
  wf_dict tr -> stl_trace detach_dist tr ix = Ok tr' ->
  let name := gname_z (ix + 1) in
  exists r d, dget name tr = Some r /\ rv_den r = Proper d /\
    dget name tr' = Some (mkRV (Proper (detach_dist d)) (rv_value r) (logp L (detach_dist d) (rv_value r)) SAMPLED true true) /\
    (forall a, a <> name -> (exists p c, name = (p ++ a ++ c)%string) -> dget a tr' = None) /\
    (forall a, ~ (exists p c, name = (p ++ a ++ c)%string) -> dget a tr' = dget a tr).
Proof.
  intros Hwf H. cbn zeta. destruct (stl_spec _ _ _ _ Hwf H) as (r & d & H1 & H2 & H3). cbn zeta in *.
  exists r, d. split; [exact H1|]. split; [exact H2|]. split; [rewrite H3, String.eqb_refl; reflexivity|]. split.
  - intros a Ha Hs. rewrite H3. apply String.eqb_neq in Ha. rewrite Ha. apply substr_app in Hs. rewrite Hs. reflexivity.
  - intros a Hs. rewrite H3. destruct (String.eqb_spec a (gname_z (ix + 1))) as [->|_].
    + exfalso. apply Hs. exists "", "". cbn. rewrite append_nil_r. reflexivity.
    + destruct (substr a (gname_z (ix + 1))) eqn:E; [|reflexivity]. apply substr_app in E. contradiction.
Qed.
Print Assumptions C43_exactly.

(** On the traces vsmc hands it - addresses g{k} and g{k+1}, for any k - it changes only
    g{k+1}.  Missing from the full property: arbitrary traces, for which it is false. *)
Theorem C43_only_forward_node_partial (L : lib) (detach_dist : D L -> D L) (tr : trace L) k tr' :
  wf_dict tr -> (forall a, In a (dkeys tr) -> a = gname k \/ a = gname (S k)) ->
  stl_trace detach_dist tr (Z.of_nat k) = Ok tr' ->
  (forall a, a <> gname (S k) -> dget a tr' = dget a tr) /\
  exists r r', dget (gname (S k)) tr = Some r /\ dget (gname (S k)) tr' = Some r' /\ rv_value r' = rv_value r.
Proof.
  intros Hwf Hk H. destruct (stl_spec _ _ _ _ Hwf H) as (r & d & H1 & H2 & H3). cbn zeta in *. rewrite gname_z_nat in *. split.
  - intros a Ha. rewrite H3. pose proof Ha as Hb. apply String.eqb_neq in Hb. rewrite Hb.
    destruct (substr a (gname (S k))) eqn:E; [|reflexivity]. symmetry. apply dget_None. intros Hin. apply Hk in Hin.
    destruct Hin as [-> | ->]; [rewrite substr_gname_S in E; discriminate|congruence].
  - exists r. eexists. split; [exact H1|]. rewrite H3, String.eqb_refl. split; reflexivity.
Qed.
Print Assumptions C43_only_forward_node_partial.
Example C43_case : exists tr', stl_trace (L := ZL) (fun d => d) [("g10", node 2); ("g9", node 1)] 9 = Ok tr' /\ dget "g9" tr' = Some (node 1).
Proof. eexists. split; vm_compute; reflexivity. Qed.
