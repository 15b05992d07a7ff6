(** C84: what the steps of the annealing sampler add to its training loss, and on which scale. *)
From Coq Require Import Reals Lra Lia.
From Verif Require Import Objectives BaseFacts SystematicFacts Thm_Annealing Thm_Propose Prop_Objectives Prop_Combinators Prop_Annealing.
Close Scope R_scope.
Open Scope nat_scope.

(** ** The incoming weight of the first step *)
Section First.
  Context {L : lib} (HL : lib_laws L).
  Notation T := (T L).

  Lemma teq_returns {A} (m : M L A) s t a s' : teq (m s) t -> returns m s a s' -> outcome t (Ok a, s').
  Proof. intros H R. apply outcome_path in R. destruct R as (ds & R). eapply path_outcome, teq_path; eassumption. Qed.

  Lemma first_weight dd loss_fn avo rs base n of_ net frep rev p oq d0 rep0 c kws s o s' :
    call_ok kws -> wf_st s -> get_cond of_ s = None -> get_cond oq s = None -> is_tensor L (tzero L) = false ->
    returns (run (vsmc_step dd loss_fn avo false rs base n 0 (kernel_prog of_ (gname 0) (gname 1) net frep) rev p
                    (distribution_prog oq (gname 0) d0 rep0)) c kws) s o s' ->
    exists px, out_px o = Some px /\ px_lw px = to_tensor L (tzero L).
  Proof.
    intros Hk Hs Cf Cq Ht H. unfold vsmc_step in H. cbn [andb] in H.
    apply (propose_law L HL) in H; [|apply Hk|exact Hs]. cbn [in_ix] in H.
    destruct H as (qo & s1 & po & s2 & qt & px & mt & mo & Hq & _ & _ & _ & _ & _ & _ & Hpx & _ & _ & Hlw & _).
    exists px. split; [exact Hpx|]. rewrite Hlw.
    set (k1 := sub_kwargs (VInt (Z.of_nat 0)) kws) in *.
    assert (K1 : call_ok k1) by (apply call_ok_sub; exact Hk).
    apply run_compose_returns in Hq; [|apply K1]. cbn [in_ix in_loss in_loss0 in_debug] in Hq.
    destruct Hq as (o1 & s3 & o2 & tr & l & _ & _ & H1 & H2 & _ & _ & _ & ->).
    set (k2 := sub_kwargs VNone k1) in *. assert (K2 : call_ok k2) by (apply call_ok_sub; exact K1).
    eapply teq_returns in H1; [|eapply (init_free HL (k_sd k2) (k_bd k2) (k_rep k2)); [exact K2|exact Cq|reflexivity..]].
    inversion H1 as [|? ? v ? H1']; subst. inversion H1'; subst.
    eapply teq_returns in H2; [|eapply (kernel_free HL (k_sd k2) (k_bd k2) (k_rep k2)); [exact K2|exact Cf|reflexivity..]].
    inversion H2 as [|? ? v' ? H2']; subst. inversion H2'; subst.
    rewrite orb_true_r. cbn [out_lw add_subs with_loss]. rewrite (tadd_zero L HL), Ht. reflexivity.
  Qed.
End First.

(** C84. In the first step of vsmc the proposal is a program that has observed nothing; the incoming
    log-weight that Propose hands to the objective is torch.tensor(0.0), one number without a sample
    dimension, whatever the shape of the samples. *)
Theorem C84_first_weight : forall (L : lib), lib_laws L ->
  forall dd loss_fn avo rs base n of_ net frep rev p oq d0 rep0 c kws s o s',
    call_ok kws -> wf_st s -> get_cond of_ s = None -> get_cond oq s = None -> is_tensor L (tzero L) = false ->
    returns (run (vsmc_step dd loss_fn avo false rs base n 0 (kernel_prog of_ (gname 0) (gname 1) net frep) rev p
                    (distribution_prog oq (gname 0) d0 rep0)) c kws) s o s' ->
    exists px, out_px o = Some px /\ px_lw px = to_tensor L (tzero L).
Proof. intros L HL. exact (first_weight HL). Qed.
Print Assumptions C84_first_weight.

(** ** The objective on a single weight *)
Lemma mc_one xs (w : ad) t0 t : estimate_mc xs [w] t0 t = rsum (map (fun e : ad => e t0 t) xs).
Proof.
  unfold estimate_mc, dsum, dsoftmax, bcast. cbn [map]. rewrite map_map. unfold dmul. cbn [rsum fold_right].
  f_equal. apply map_ext. intros e. field. pose proof (exp_pos (w t0 t)). lra.
Qed.
Lemma mc_one_grad xs w t0 gs : Forall2 (fun e g => has_grad e t0 g) xs gs -> has_grad (estimate_mc xs [w]) t0 (rsum gs).
Proof.
  intros H. unfold has_grad. apply (derive_ext (fun t => rsum (map (fun f => f t) (map (fun e : ad => e t0) xs)))).
  { intros t. rewrite mc_one, map_map. reflexivity. }
  apply derive_sum. induction H; cbn [map]; constructor; assumption.
Qed.
Lemma nweights_shift w t0 lv : nweights t0 (map (dadd w) lv) = nweights t0 lv.
Proof.
  unfold nweights. rewrite !map_map. unfold value, dadd.
  assert (E : rsum (map (fun x : ad => exp (w t0 t0 + x t0 t0)) lv) = (exp (w t0 t0) * rsum (map (fun x : ad => exp (x t0 t0)) lv))%R).
  { rewrite <- rsum_scal. f_equal. apply map_ext. intros. apply exp_plus. }
  rewrite E. destruct lv as [|e0 lv']; [reflexivity|]. set (l := e0 :: lv') in *. apply map_ext. intros e. rewrite exp_plus.
  pose proof (exp_pos (w t0 t0)). assert (0 < rsum (map (fun x : ad => exp (x t0 t0)) l))%R by (apply exps_pos; discriminate).
  field. split; lra.
Qed.

Section FirstRkl.
  Variables (o : out_ad) (t0 : R) (w : ad) (np nt nf nr : node_ad) (dlv dnrep : list R).
  Let n := length (oa_lv o).
  Hypotheses (Hp : dget (gname_z (oa_ix o)) (oa_proposal o) = Some np)
    (Ht : dget (gname_z (oa_ix o + 1)) (oa_target o) = Some nt)
    (Hf : dget (gname_z (oa_ix o + 1)) (oa_proposal o) = Some nf)
    (Hr : dget (gname_z (oa_ix o)) (oa_target o) = Some nr)
    (HS : n <> 0) (Hw : oa_lw o = [w]) (Hlp : length (n_lp np) = n) (Hnr : length (n_nrep nt) = n)
    (Hrv : n_rv np = true) (Gp : Forall (fun e => has_grad e t0 0%R) (n_lp np))
    (Gv : Forall2 (fun e g => has_grad e t0 g) (oa_lv o) dlv)
    (Gt : Forall2 (fun e g => has_grad e t0 g) (n_nrep nt) dnrep).
  Let lv := map (fun e => value e t0) (oa_lv o).
  Let c := ln (rsum (map exp lv) / INR n).
  Let B := (INR n * c - rsum lv)%R.

  Lemma first_rkl : exists loss, nvo_rkl o = Ok loss /\ value loss t0 = ((2 - INR n) * B)%R /\
    has_grad loss t0 (- rsum dlv + (if n_rv nt then 0 else dot (nweights t0 (oa_lv o)) dnrep))%R.
  Proof.
    unfold nvo_rkl, getitem. rewrite Hp, Ht, Hf, Hr. cbn [rbind].
    destruct (Nat.eqb_spec (length (oa_lv o)) 0) as [E|_]; [contradiction|].
    rewrite Hw. cbn [map]. unfold fits. cbn [length]. rewrite orb_true_r. cbn [orb negb]. rewrite Hrv.
    eexists. split; [reflexivity|].
    set (ldZ := dsub _ (dconst (ln (INR (length (oa_lv o)))))).
    set (f := map (fun v => dneg (dsub v ldZ)) (oa_lv o)).
    set (Z2 := if n_rv nt then _ else _).
    set (base := estimate_mc (map ddetach f) [ddetach w]).
    assert (HldZ : forall t, ldZ t0 t = c).
    { intros t. unfold ldZ, dsub, dconst, dlogsumexp, c, lv. rewrite !map_map. unfold ddetach, value.
      symmetry. unfold Rdiv. rewrite ln_mult, ln_Rinv; [unfold n; ring| | |].
      - apply lt_0_INR. lia.
      - apply exps_pos. intros E. unfold n in HS. rewrite E in HS. contradiction.
      - apply Rinv_0_lt_compat, lt_0_INR. lia. }
    assert (HB : forall l : list ad, rsum (map (fun e => - (value e t0 - c))%R l) = (INR (length l) * c - rsum (map (fun e => value e t0) l))%R).
    { induction l as [|e l IH]; [cbn; ring|]. cbn [map length]. rewrite !rsum_cons, IH, S_INR. ring. }
    assert (Hbase : forall t, base t0 t = B).
    { intros t. unfold base. rewrite mc_one. unfold f. rewrite !map_map. unfold B, n, lv. rewrite <- HB. f_equal. apply map_ext.
      intros e. unfold ddetach, dneg, dsub, value. rewrite HldZ. reflexivity. }
    assert (HgZ2 : has_grad Z2 t0 (if n_rv nt then 0 else dot (nweights t0 (oa_lv o)) dnrep)%R).
    { unfold Z2. destruct (n_rv nt); [exact (derive_const 0 t0)|]. cbn [bcast].
      replace (map (dadd (ddetach w)) (map ddetach (oa_lv o))) with (map ddetach (map (dadd w) (oa_lv o))) by (rewrite !map_map; reflexivity).
      rewrite <- (nweights_shift w). apply mc_grad; [rewrite map_length; exact Hnr|exact Gt]. }
    set (xs := zip_with (fun x lp => dmul (dsub x base) (eval1 (dsub lp (dconst 0)))) f (n_lp np)).
    assert (Hxs : rsum (map (fun e => value e t0) xs) = (B - INR n * B)%R /\ Forall2 (fun e g => has_grad e t0 g) xs (map Ropp dlv)).
    { assert (G : forall (l lps : list ad) gs, length lps = length l -> Forall (fun e => has_grad e t0 0%R) lps -> Forall2 (fun e g => has_grad e t0 g) l gs ->
        let xs := zip_with (fun x lp => dmul (dsub x base) (eval1 (dsub lp (dconst 0)))) (map (fun v => dneg (dsub v ldZ)) l) lps in
        rsum (map (fun e => value e t0) xs) = (rsum (map (fun e => - (value e t0 - c)) l) - INR (length l) * B)%R /\ Forall2 (fun e g => has_grad e t0 g) xs (map Ropp gs)).
      { induction l as [|e l IH]; intros [|lp lps] gs Hl Hps Hgs; try discriminate; inversion Hgs; subst; [split; [cbn; ring|constructor]|].
        injection Hl as Hl. inversion Hps; subst. destruct (IH lps l' Hl H4 H3) as [I1 I2].
        assert (Hs : has_grad (dsub lp (dconst 0)) t0 0%R) by (eapply derive_eq; [apply derive_sub; [eassumption|exact (derive_const 0 t0)]|ring]).
        destruct (C45_eval1 _ _ _ Hs) as [Hv Hg]. unfold zip_with in *. cbn [map combine fst snd]. split.
        - rewrite rsum_cons, I1. cbn [length]. rewrite rsum_cons, S_INR.
          unfold value at 1, dmul. change (eval1 (dsub lp (dconst 0)) t0 t0) with (value (eval1 (dsub lp (dconst 0))) t0). rewrite Hv.
          unfold dsub at 1, dneg, dsub. rewrite HldZ, Hbase. unfold value. ring.
        - constructor; [|exact I2]. unfold has_grad, dmul. eapply derive_eq.
          + apply derive_mul; [|exact Hg]. apply (derive_ext (fun t => - (e t0 t - c) - B)%R).
            { intros t. unfold dsub, dneg. rewrite HldZ, Hbase. reflexivity. }
            apply derive_sub; [|apply derive_const]. apply derive_neg, derive_sub; [eassumption|apply derive_const].
          + cbn beta. change (eval1 (dsub lp (dconst 0)) t0 t0) with (value (eval1 (dsub lp (dconst 0))) t0). rewrite Hv. ring. }
      destruct (G (oa_lv o) (n_lp np) dlv Hlp Gp Gv) as [G1 G2]. split; [|exact G2]. unfold xs, f. rewrite G1, HB. reflexivity. }
    destruct Hxs as [Hxv Hxg]. destruct (C45_eval0 _ _ _ HgZ2) as [Hz Hzg].
    split.
    - unfold value, dadd. change (eval0 Z2 t0 t0) with (value (eval0 Z2) t0). rewrite Hz, Hbase, mc_one.
      change (map (fun e : ad => e t0 t0) xs) with (map (fun e => value e t0) xs). rewrite Hxv. ring.
    - eapply derive_eq.
      + apply derive_add; [apply derive_add; [apply mc_one_grad, Hxg|exact Hzg]|].
        apply (derive_ext (fun _ => B)); [intros; symmetry; apply Hbase|apply derive_const].
      + rewrite <- (map_id dlv) at 2. rewrite rsum_neg'. ring.
  Qed.
End FirstRkl.

Definition uniform (l : list R) : list R := map (fun _ => (1 / INR (length l))%R) l.
Lemma dot_uniform k l : dot (map (fun _ => k) l) l = (k * rsum l)%R.
Proof. induction l as [|x l IH]; cbn [map]; [cbn; ring|]. rewrite dot_cons, rsum_cons, IH. ring. Qed.

(** C84. What nvo_rkl is on that weight, when the initial distribution has no parameters (as in the
    experiment): not the divergence estimate of C45_rkl for S samples of equal weight but [(2 - S) S]
    times that, and the gradient of the log-weights is summed over the samples instead of averaged:
    [S] times as large, next to a gradient of the log normaliser that is averaged. *)
Theorem C84_rkl_first_step (o : out_ad) (t0 : R) (w : ad) (np nt nf nr : node_ad) (dlv dnrep : list R) :
  let S := INR (length (oa_lv o)) in
  let lv := map (fun e => value e t0) (oa_lv o) in
  dget (gname_z (oa_ix o)) (oa_proposal o) = Some np ->
  dget (gname_z (oa_ix o + 1)) (oa_target o) = Some nt ->
  dget (gname_z (oa_ix o + 1)) (oa_proposal o) = Some nf ->
  dget (gname_z (oa_ix o)) (oa_target o) = Some nr ->
  length (oa_lv o) <> 0 -> oa_lw o = [w] -> length (n_lp np) = length (oa_lv o) -> length (n_nrep nt) = length (oa_lv o) ->
  n_rv np = true -> Forall (fun e => has_grad e t0 0%R) (n_lp np) ->
  Forall2 (fun e g => has_grad e t0 g) (oa_lv o) dlv ->
  Forall2 (fun e g => has_grad e t0 g) (n_nrep nt) dnrep ->
  exists loss, nvo_rkl o = Ok loss /\
    value loss t0 = ((2 - S) * S * rkl_value (uniform lv) lv)%R /\
    has_grad loss t0 (S * - (rsum dlv / S) + (if n_rv nt then 0 else dot (nweights t0 (oa_lv o)) dnrep))%R.
Proof.
  intros S lv Hp Ht Hf Hr HS Hw Hlp Hnr Hrv Gp Gv Gt.
  destruct (first_rkl o t0 w np nt nf nr dlv dnrep Hp Ht Hf Hr HS Hw Hlp Hnr Hrv Gp Gv Gt) as (loss & E & V & G).
  assert (HS' : (0 < S)%R) by (apply lt_0_INR; lia).
  exists loss. split; [exact E|]. split.
  - assert (El : length lv = length (oa_lv o)) by apply map_length.
    rewrite V. fold lv. unfold rkl_value, uniform. rewrite dot_uniform, El. fold S. field. lra.
  - eapply derive_eq; [exact G|]. field. lra.
Qed.
Print Assumptions C84_rkl_first_step.

(** With two or more samples the loss of the first step is never positive, whereas the divergence it
    estimates is never negative (C45_rkl_nonneg). *)
Theorem C84_rkl_first_step_sign (o : out_ad) (t0 : R) (w : ad) (np nt nf nr : node_ad) (dlv dnrep : list R) loss :
  dget (gname_z (oa_ix o)) (oa_proposal o) = Some np ->
  dget (gname_z (oa_ix o + 1)) (oa_target o) = Some nt ->
  dget (gname_z (oa_ix o + 1)) (oa_proposal o) = Some nf ->
  dget (gname_z (oa_ix o)) (oa_target o) = Some nr ->
  2 <= length (oa_lv o) -> oa_lw o = [w] -> length (n_lp np) = length (oa_lv o) -> length (n_nrep nt) = length (oa_lv o) ->
  n_rv np = true -> Forall (fun e => has_grad e t0 0%R) (n_lp np) ->
  Forall2 (fun e g => has_grad e t0 g) (oa_lv o) dlv ->
  Forall2 (fun e g => has_grad e t0 g) (n_nrep nt) dnrep ->
  nvo_rkl o = Ok loss -> (value loss t0 <= 0)%R.
Proof.
  intros Hp Ht Hf Hr HS Hw Hlp Hnr Hrv Gp Gv Gt El.
  destruct (C84_rkl_first_step o t0 w np nt nf nr dlv dnrep Hp Ht Hf Hr ltac:(lia) Hw Hlp Hnr Hrv Gp Gv Gt) as (loss' & E & V & _).
  rewrite El in E. injection E as <-. rewrite V. set (lv := map (fun e => value e t0) (oa_lv o)).
  assert (0 <= rkl_value (uniform lv) lv)%R.
  { apply C45_rkl_nonneg; [|reflexivity]. unfold lv. destruct (oa_lv o); [cbn in HS; lia|discriminate]. }
  apply le_INR in HS. cbn [INR] in HS. set (n := INR (length (oa_lv o))) in *. set (d := rkl_value (uniform lv) lv) in *.
  assert (0 <= (n - 2) * n * d)%R by (apply Rmult_le_pos; [apply Rmult_le_pos; lra|assumption]). lra.
Qed.
Print Assumptions C84_rkl_first_step_sign.

(** What the other steps add when every particle has its own, equal, incoming weight: the average. *)
Theorem C84_rkl_average_partial (o : out_ad) (t0 : R) (x : R) (np nt nf nr : node_ad) (dlv dlp dnrep : list R) :
  let S := INR (length (oa_lv o)) in
  let lv := map (fun e => value e t0) (oa_lv o) in
  dget (gname_z (oa_ix o)) (oa_proposal o) = Some np ->
  dget (gname_z (oa_ix o + 1)) (oa_target o) = Some nt ->
  dget (gname_z (oa_ix o + 1)) (oa_proposal o) = Some nf ->
  dget (gname_z (oa_ix o)) (oa_target o) = Some nr ->
  length (oa_lv o) <> 0 -> length (oa_lw o) = length (oa_lv o) -> (forall e, In e (oa_lw o) -> value e t0 = x) ->
  length (n_lp np) = length (oa_lv o) -> length (n_nrep nt) = length (oa_lv o) ->
  Forall2 (fun e g => has_grad e t0 g) (oa_lv o) dlv ->
  Forall2 (fun e g => has_grad e t0 g) (n_lp np) dlp ->
  Forall2 (fun e g => has_grad e t0 g) (n_nrep nt) dnrep ->
  exists loss, nvo_rkl o = Ok loss /\
    value loss t0 = rkl_value (uniform lv) lv /\
    has_grad loss t0 (- (rsum dlv / S) - cov (uniform lv) lv dlp
                      + (if n_rv nt then 0 else dot (nweights t0 (zip_with dadd (oa_lw o) (oa_lv o))) dnrep))%R.
Proof.
  intros S lv Hp Ht Hf Hr HS Hw Hx Hlp Hnr Gv Gp Gt.
  destruct (C45_rkl o t0 np nt nf nr dlv dlp dnrep Hp Ht Hf Hr HS Hw Hlp Hnr Gv Gp Gt) as (loss & E & V & G).
  assert (HS' : (0 < S)%R) by (apply lt_0_INR; lia).
  assert (EW : nweights t0 (oa_lw o) = uniform lv).
  { assert (E1 : forall l : list ad, (forall e, In e l -> value e t0 = x) -> rsum (map (fun e => exp (value e t0)) l) = (INR (length l) * exp x)%R).
    { induction l as [|e l IH]; intros H; [cbn; ring|]. cbn [map length]. rewrite rsum_cons, IH, S_INR, (H e); [ring|left; reflexivity|intros; apply H; right; assumption]. }
    unfold nweights. rewrite E1, Hw by exact Hx. fold S. unfold uniform, lv. rewrite map_length. fold S. rewrite map_map.
    assert (E2 : forall l : list ad, (forall e, In e l -> value e t0 = x) -> map (fun e => exp (value e t0) / (S * exp x))%R l = map (fun _ => 1 / S)%R l).
    { intros l H. apply map_ext_in. intros e He. rewrite (H e He). pose proof (exp_pos x). field. lra. }
    rewrite E2 by exact Hx. clear - Hw. revert Hw. generalize (oa_lv o). induction (oa_lw o) as [|e l IH]; intros [|e' l'] H; try discriminate; [reflexivity|].
    cbn [map]. f_equal. apply IH. injection H as H. exact H. }
  exists loss. split; [exact E|]. rewrite EW in V, G. split; [exact V|]. eapply derive_eq; [exact G|].
  assert (Ed : dot (uniform lv) dlv = (rsum dlv / S)%R).
  { assert (Hl : length dlv = length lv) by (unfold lv; rewrite map_length; symmetry; eapply Forall2_length; exact Gv).
    unfold uniform. replace (map (fun _ : R => (1 / INR (length lv))%R) lv) with (map (fun _ : R => (1 / S)%R) dlv); [rewrite dot_uniform; field; lra|].
    unfold S. rewrite <- (map_length (fun e => value e t0) (oa_lv o)). fold lv. clear - Hl. generalize (1 / INR (length lv))%R. intros k. revert dlv Hl.
    induction lv as [|y l IH]; intros [|d dl] H; try discriminate; [reflexivity|]. cbn [map]. f_equal. apply IH. injection H as H. exact H. }
  rewrite Ed. reflexivity.
Qed.
Print Assumptions C84_rkl_average_partial.

(** C84, as stated, is false: three samples with incremental weights 1, 1 and 4 e^t.  With the
    incoming weight of the first step the loss is -ln 2 with gradient -1; with three equal incoming
    weights it is (ln 2) / 3 with gradient -1/3. *)
Definition C84_node (rv : bool) : node_ad := mkNode rv [dconst 0; dconst 0; dconst 0] [dconst 0; dconst 0; dconst 0].
Definition C84_out (lw : list ad) : out_ad :=
  mkOutAd 0 lw [dconst 0; dconst 0; fun _ t => (ln 4 + t)%R] [("g0", C84_node true); ("g1", C84_node true)] [("g1", C84_node false); ("g0", C84_node true)].
Lemma C84_dlv : Forall2 (fun e g => has_grad e 0 g) (oa_lv (C84_out [dconst 0])) [0%R; 0%R; 1%R].
Proof.
  repeat constructor; try exact (derive_const 0 _). unfold has_grad.
  eapply derive_eq; [apply derive_add; [apply derive_const|apply derivable_pt_lim_id]|ring].
Qed.
Lemma C84_value : rkl_value (uniform [0; 0; ln 4 + 0]%R) [0; 0; ln 4 + 0]%R = (ln 2 / 3)%R.
Proof.
  unfold rkl_value, uniform. rewrite dot_uniform. cbn [map length INR rsum fold_right]. rewrite !Rplus_0_r, exp_0, exp_ln by lra.
  replace ((1 + (1 + 4)) / (1 + 1 + 1))%R with 2%R by field. replace (ln 4) with (2 * ln 2)%R; [field|].
  replace 4%R with (2 * 2)%R by ring. rewrite ln_mult by lra. ring.
Qed.
Theorem C84_average_refuted :
  (exists loss, nvo_rkl (C84_out [dconst 0]) = Ok loss /\ value loss 0%R = (- ln 2)%R /\ has_grad loss 0%R (- 1)%R) /\
  (exists loss, nvo_rkl (C84_out [dconst 0; dconst 0; dconst 0]) = Ok loss /\ value loss 0%R = (ln 2 / 3)%R /\ has_grad loss 0%R (- (1 / 3))%R).
Proof.
  assert (G0 : Forall2 (fun e g => has_grad e 0%R g) [dconst 0; dconst 0; dconst 0] [0%R; 0%R; 0%R]) by (repeat constructor; exact (derive_const 0 _)).
  assert (Z : forall l, dot l [0; 0; 0]%R = 0%R) by
    (intros [|? [|? [|? [|? ?]]]]; unfold dot, zip_with; cbn [combine map fst snd rsum fold_right]; ring).
  split.
  - destruct (C84_rkl_first_step (C84_out [dconst 0]) 0%R (dconst 0) (C84_node true) (C84_node false) (C84_node true) (C84_node true)
      [0; 0; 1]%R [0; 0; 0]%R) as (loss & E & V & G); try reflexivity; try discriminate; try exact C84_dlv; try exact G0.
    { repeat constructor; exact (derive_const 0 _). }
    exists loss. split; [exact E|]. split.
    + rewrite V. cbn [C84_out oa_lv map value dconst length INR]. unfold value, dconst. rewrite C84_value. field.
    + eapply derive_eq; [exact G|]. cbn [n_rv C84_node]. rewrite Z. cbn [C84_out oa_lv length INR rsum fold_right]. field.
  - destruct (C84_rkl_average_partial (C84_out [dconst 0; dconst 0; dconst 0]) 0%R 0%R (C84_node true) (C84_node false) (C84_node true) (C84_node true)
      [0; 0; 1]%R [0; 0; 0]%R [0; 0; 0]%R) as (loss & E & V & G); try reflexivity; try discriminate; try exact C84_dlv; try exact G0.
    { intros e [<-|[<-|[<-|[]]]]; reflexivity. }
    exists loss. split; [exact E|]. split.
    + rewrite V. cbn [C84_out oa_lv map]. unfold value, dconst. apply C84_value.
    + eapply derive_eq; [exact G|]. cbn [n_rv C84_node]. rewrite Z. unfold cov.
      match goal with |- context [dot _ (zip_with Rmult ?a [0; 0; 0]%R)] => replace (zip_with Rmult a [0; 0; 0]%R) with [0; 0; 0]%R end.
      2:{ cbn [C84_out oa_lv map]. unfold zip_with. cbn [combine map fst snd]. rewrite !Rmult_0_r. reflexivity. }
      rewrite Z. cbn [C84_out oa_lv length INR rsum fold_right]. field.
Qed.
Print Assumptions C84_average_refuted.

(** The only step of a one-step sampler over the integers, whose number 0.0 is no tensor: it runs,
    and its incoming weight is the tensor of that number. *)
Definition C84_step : inf ZL :=
  vsmc_step (L := ZL) (fun d => d) (fun o => Ok (out_lw o)) false false zrs 5 1 0
    (kernel_prog (pb_oid_f zproblem 0) (gname 0) (gname 1) (pb_fwd zproblem 0) (pb_fwd_rep zproblem 0))
    (kernel_prog (pb_oid_r zproblem 0) (gname 1) (gname 0) (pb_rev zproblem 0) (pb_rev_rep zproblem 0))
    (target_prog (pb_oid_t zproblem 1) (gname 1) (pb_target zproblem 1))
    (distribution_prog (pb_oid_t zproblem 0) (gname 0) (pb_d0 zproblem) (pb_rep0 zproblem)).
Example C84_hypotheses : zvsmc 1 false = Ok C84_step /\ is_tensor ZL (tzero ZL) = false /\ call_ok (L := ZL) [] /\ wf_st (st0 ZL) /\
  exists o s', returns (run C84_step VNone []) (st0 ZL) o s' /\ exists px, out_px o = Some px /\ px_lw px = (true, 0, 0)%Z.
Proof.
  assert (K : call_ok (L := ZL) []) by (split; [constructor|reflexivity]).
  split; [reflexivity|]. split; [reflexivity|]. split; [exact K|]. split; [exact C09_wf_fresh|].
  destruct (seen_by (run (L := ZL) C84_step VNone []) (st0 ZL) [zten 1; zten 3] (fun o _ => out_lw o) (true, -22, 0)%Z)
    as (o & s' & H & E); [vm_compute; reflexivity|].
  exists o, s'. split; [exact H|].
  unfold C84_step in H. apply (C84_first_weight ZL ZL_laws) in H; try reflexivity; [exact H|exact K|exact C09_wf_fresh].
Qed.
