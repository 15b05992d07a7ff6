(** Property C87: training an annealing path with nvo_avo minimises an upper bound of minus the
    log-evidence, with and without resampling. *)
From Coq Require Import Lra Lia.
From Coquelicot Require Import Coquelicot.
From Verif Require Import SpecBound Thm_Bound Thm_Particles Thm_Resampled InstancesPop SpecSampler Thm_Sampler SpecTotal Thm_Total SpecGibbs Thm_Sweeps
  Prop_Metrics Prop_Resample Prop_Total Prop_Proper Prop_Particles Prop_Observed Prop_Sampler.
From Verif Require Import Prop_Bound Thm_Annealing SpecElbo ObjectivesArr.
Open Scope nat_scope.

(** For every run of the sampler that vsmc builds with this objective: the loss has one number
    per batch entry; minus the loss is at most the average of the particles' log-weights, which
    is at most the logarithm of their average weight; without resampling, minus the loss is the
    average of the log-weights. *)
Theorem C87_loss : forall (LV LS : lib) (HL : lib_laws LV) (M : measures LS) (ML : measure_laws M)
    (W : array_view LV) N B (P : population LV LS) (PL : population_laws W N B P M)
    (pb : problem LV) (pb1 : problem LS) (Z : nat -> Sp M) (detach_dist : D LV -> D LV)
    (avo resample : bool) base K q c kws st x,
  0 < N -> copies_problem W N B P pb pb1 -> path_spaces M Z pb1 ->
  (forall rep' b' p, lj_ok LV rep' b' p = true) ->
  (forall d v, tensor_equal LV (logp LV d v) (logp LV (detach_dist d) v) = true) ->
  (forall d s b', s < N -> b' < B -> dpart P s b' (detach_dist d) = dpart P s b' d) ->
  losses_add W B -> 0 < K ->
  identities pb base K ->
  kwarg "sample_dims" VNone kws = VInt 0 -> kwarg "batch_dim" VNone kws = VInt 1 -> plain_call kws -> at_rest st ->
  vsmc detach_dist base (pb_targets pb K) (pb_forwards pb K) (pb_reverses pb K) (nvo_avo_tensor W) avo resample (systematic W false) = Ok q ->
  possible W N B (run q c kws st) x ->
  exists o l, fst x = Ok o /\ out_loss o = Some l /\ loss_tensor W B l /\ forall b, b < B ->
    (- loss_at W b l <= average_log_weight W N b o)%R /\
    (average_log_weight W N b o <= log_evidence W N b x)%R /\
    (resample = false -> (- loss_at W b l = average_log_weight W N b o)%R).
Proof.
  intros LV LS HL M ML W N B P PL pb pb1 Z dd avo resample base K q c kws st x HN HC HZ Hlj H1 H2 Hadd HK Hid Hsd Hbd [Hwf Hpl] Hr Hq Hx.
  assert (Hl : forall o px, out_px o = Some px -> exists l, nvo_avo_tensor W o = Ok l) by (intros o px E; unfold nvo_avo_tensor; rewrite E; eexists; reflexivity).
  destruct (C61_never_raises LV LS HL M ML W N B P PL pb pb1 Z dd (nvo_avo_tensor W) avo resample base K q c kws st x HN HC HZ Hlj H1 H2 Hl Hid Hsd Hbd (conj Hwf Hpl) Hr Hq Hx)
    as (o & r & Eo & _). destruct x as [x s']. cbn [fst] in Eo. subst x.
  destruct (identities_wlog pb base K Hid) as (base' & t & r' & Ho1 & Ho2 & Ho3 & E). rewrite <- E in Hq.
  assert (HC' : copies_problem W N B P (relabel pb t r') pb1) by (destruct HC; constructor; assumption).
  pose proof (sampler_elbo HL M ML W N B P PL HN (relabel pb t r') pb1 HC' Z HZ (kwarg "reparameterized" (VBool true) kws) (Hlj _) dd H1 H2 (nvo_avo_tensor W) Hl avo base' Ho1 Ho2 Ho3 resample
    Hadd (avo_objective W N B HN) K c q Hq kws st) as He.
  specialize (He ltac:(split; [split; [exact Hwf|]|split; [exact Hsd|split; [exact Hbd|reflexivity]]]; apply clash_false; intros k Hk Hi; exact (Hpl k Hi Hk)) Hr o s' Hx).
  destruct K as [|K]; [lia|]. destruct He as (l & El & Tl & Hb). exists o, l. split; [reflexivity|]. split; [exact El|]. split; [exact Tl|].
  intros b Hlt. destruct (Hb b Hlt) as [A1 A2]. split; [exact A1|]. split; [|exact A2].
  unfold log_evidence, average_log_weight. cbn [fst]. apply log_mean_exp. exact HN.
Qed.
Print Assumptions C87_loss.

(** If the logarithms of the factors by which the steps multiply the weights are bounded, so are
    the log-weights and the losses of all runs, with and without resampling. *)
Theorem C87_bounded : forall (LV LS : lib) (HL : lib_laws LV) (M : measures LS) (ML : measure_laws M)
    (W : array_view LV) N B (P : population LV LS) (PL : population_laws W N B P M) supp (PP : positive_population W N B P supp)
    (pb : problem LV) (pb1 : problem LS) (Z : nat -> Sp M) (detach_dist : D LV -> D LV)
    (avo resample : bool) base K q c kws st b,
  0 < N -> b < B -> copies_problem W N B P pb pb1 -> path_spaces M Z pb1 ->
  (forall rep' b' p, lj_ok LV rep' b' p = true) ->
  (forall d v, tensor_equal LV (logp LV d v) (logp LV (detach_dist d) v) = true) ->
  (forall d s b', s < N -> b' < B -> dpart P s b' (detach_dist d) = dpart P s b' d) ->
  losses_add W B -> 0 < K ->
  identities pb base K ->
  kwarg "sample_dims" VNone kws = VInt 0 -> kwarg "batch_dim" VNone kws = VInt 1 -> plain_call kws -> at_rest st ->
  vsmc detach_dist base (pb_targets pb K) (pb_forwards pb K) (pb_reverses pb K) (nvo_avo_tensor W) avo resample (systematic W false) = Ok q ->
  bounded_path N B P M supp pb pb1 ->
  bounded_weights W N B supp b (run q c kws st) /\ bounded_losses W B supp b (run q c kws st).
Proof.
  intros LV LS HL M ML W N B P PL supp PP pb pb1 Z dd avo resample base K q c kws st b HN Hb HC HZ Hlj H1 H2 Hadd HK Hid Hsd Hbd [Hwf Hpl] Hr Hq (points & U & HP0 & HPS & HPU).
  assert (Hl : forall o px, out_px o = Some px -> exists l, nvo_avo_tensor W o = Ok l) by (intros o px E; unfold nvo_avo_tensor; rewrite E; eexists; reflexivity).
  destruct (identities_wlog pb base K Hid) as (base' & t & r' & Ho1 & Ho2 & Ho3 & E). rewrite <- E in Hq.
  assert (HC' : copies_problem W N B P (relabel pb t r') pb1) by (destruct HC; constructor; assumption).
  pose proof (sampler_within HL M ML W N B P PL HN (relabel pb t r') pb1 HC' Z HZ (kwarg "reparameterized" (VBool true) kws) (Hlj _) dd H1 H2 (nvo_avo_tensor W) Hl avo base' Ho1 Ho2 Ho3 resample
    Hadd (avo_objective W N B HN) supp PP points U HP0 HPS HPU K c q Hq kws st) as He.
  specialize (He ltac:(split; [split; [exact Hwf|]|split; [exact Hsd|split; [exact Hbd|reflexivity]]]; apply clash_false; intros k Hk Hi; exact (Hpl k Hi Hk)) Hr).
  split; exists (INR K * U)%R; intros o s' Hx; destruct (He o s' Hx) as (r & _ & _ & Hw & Hls).
  - intros s Hs. apply Hw; assumption.
  - destruct K as [|K]; [lia|]. destruct Hls as (l & El & _ & Hlb). unfold minus_loss. cbn [fst]. rewrite El. pose proof (Hlb b Hb). lra.
Qed.
Print Assumptions C87_bounded.

(** On average, minus the loss is at most the estimate of the log-evidence, which is at most
    the logarithm of the normalising constant of the last target: with resampling, for steps that
    multiply weights by factors whose logarithms are bounded. *)
Theorem C87_bound : forall (LV LS : lib) (HL : lib_laws LV) (M : measures LS) (ML : measure_laws M)
    (W : array_view LV) N B (P : population LV LS) (PL : population_laws W N B P M) supp (PP : positive_population W N B P supp)
    (pb : problem LV) (pb1 : problem LS) (Z : nat -> Sp M) (detach_dist : D LV -> D LV)
    (avo resample : bool) base K q c kws st b,
  0 < N -> b < B -> copies_problem W N B P pb pb1 -> path_spaces M Z pb1 ->
  (forall rep' b' p, lj_ok LV rep' b' p = true) ->
  (forall d v, tensor_equal LV (logp LV d v) (logp LV (detach_dist d) v) = true) ->
  (forall d s b', s < N -> b' < B -> dpart P s b' (detach_dist d) = dpart P s b' d) ->
  losses_add W B -> 0 < K ->
  identities pb base K ->
  kwarg "sample_dims" VNone kws = VInt 0 -> kwarg "batch_dim" VNone kws = VInt 1 -> plain_call kws -> at_rest st ->
  vsmc detach_dist base (pb_targets pb K) (pb_forwards pb K) (pb_reverses pb K) (nvo_avo_tensor W) avo resample (systematic W false) = Ok q ->
  resample = false \/ bounded_path N B P M supp pb pb1 ->
  (0 < integral M (Z K) (path_density M pb1 K))%R ->
  (expectation P (run q c kws st) (minus_loss W b) <= expectation P (run q c kws st) (log_evidence W N b))%R /\
  (expectation P (run q c kws st) (log_evidence W N b) <= ln (integral M (Z K) (path_density M pb1 K)))%R.
Proof.
  intros LV LS HL M ML W N B P PL supp PP pb pb1 Z dd avo resample base K q c kws st b HN Hb HC HZ Hlj H1 H2 Hadd HK Hid Hsd Hbd Hpl Hr Hq Hor Hpos.
  assert (Hl : forall o px, out_px o = Some px -> exists l, nvo_avo_tensor W o = Ok l) by (intros o px E; unfold nvo_avo_tensor; rewrite E; eexists; reflexivity).
  assert (Hor' : resample = false \/ bounded_weights W N B supp b (run q c kws st) /\ bounded_losses W B supp b (run q c kws st)).
  { destruct Hor as [->|Hbp]; [left; reflexivity|right]. eapply (C87_bounded LV LS HL M ML W N B P PL supp PP pb pb1 Z dd avo resample base K q c kws st b); eassumption. }
  clear Hor. rename Hor' into Hor.
  assert (Hle : forall x, possible W N B (run q c kws st) x -> (minus_loss W b x <= log_evidence W N b x)%R).
  { intros x Hx. destruct (C87_loss LV LS HL M ML W N B P PL pb pb1 Z dd avo resample base K q c kws st x HN HC HZ Hlj H1 H2 Hadd HK Hid Hsd Hbd Hpl Hr Hq Hx) as (o & l & Eo & El & _ & Ha).
    destruct (Ha b Hb) as (A1 & A2 & _). unfold minus_loss. rewrite Eo, El. lra. }
  assert (HQ : forall x, possible W N B (run q c kws st) x -> exists o, fst x = Ok o).
  { intros x Hx. destruct (C87_loss LV LS HL M ML W N B P PL pb pb1 Z dd avo resample base K q c kws st x HN HC HZ Hlj H1 H2 Hadd HK Hid Hsd Hbd Hpl Hr Hq Hx) as (o & l & Eo & _). exists o. exact Eo. }
  assert (G : (expectation P (run q c kws st) (minus_loss W b) <= expectation P (run q c kws st) (log_evidence W N b))%R).
  { destruct Hor as [->|[[U HU] [V HV]]].
    - apply (EV_mono_nr W N B P supp PP); [apply nr_run; eapply vsmc_plain, Hq|exact Hle].
    - assert (Ho : forall x, arises W B supp (run q c kws st) x -> exists o, fst x = Ok o) by (intros x Hx; apply HQ, (aris_poss W N B P supp PP), Hx).
      apply (EV_mono_within M ML W N B P PL supp PP HN ltac:(lia) (run q c kws st) (Rmax U V)).
      + intros [x s'] Hx. destruct (Ho _ Hx) as [o Eo]. cbn [fst] in Eo. subst x. pose proof (HV o s' Hx). pose proof (Rmax_r U V). lra.
      + intros [x s'] Hx. destruct (Ho _ Hx) as [o Eo]. cbn [fst] in Eo. subst x. unfold log_evidence. cbn [fst].
        destruct (total_within W N B HN ltac:(lia) b o U (HU o s' Hx)) as [T1 T2]. 
        assert (- U <= ln (total_weight W N b o) <= U)%R.
        { split; [rewrite <- (ln_exp (- U)); apply ln_mono; [apply exp_pos|exact T1]|rewrite <- (ln_exp U); apply ln_mono; [apply (total_pos M W N B P PL supp PP HN ltac:(lia))|exact T2]]. }
        unfold total_weight in H. pose proof (Rmax_l U V). lra.
      + intros x Hx. apply Hle, (aris_poss W N B P supp PP), Hx. }
  split; [exact G|].
  eapply (C86_sampler LV LS HL M ML W N B P PL supp PP pb pb1 Z dd (nvo_avo_tensor W) avo resample base K q c kws st b); try assumption. tauto.
Qed.
Print Assumptions C87_bound.

(** ** an instance: the path of C61 with two particles, without and with resampling *)
Definition trainV (resample : bool) : res (inf PopL) :=
  vsmc (L := PopL) (fun d => d) 10 (pb_targets pathV 2) (pb_forwards pathV 2) (pb_reverses pathV 2) (nvo_avo_tensor PopV) true resample (systematic PopV false).
Lemma PopV_losses : losses_add PopV 1.
Proof.
  intros [x|x] [y|y] (Tx & Sx & Fx) (Ty & Sy & Fy); try discriminate. cbn [PopV to_arr arr_of] in *.
  assert (E : forall b, b < 1 -> exists p q, at_ x [b] = Fin p /\ at_ y [b] = Fin q) by (intros b Hb; destruct (Fx b Hb) as [p Ep], (Fy b Hb) as [q Eq]; eauto).
  split.
  - split; [reflexivity|]. cbn [PopL tadd pop_add PopV to_arr arr_of shape at_]. rewrite Sx, Sy. split; [reflexivity|]. intros b Hb. destruct (E b Hb) as (p & q & Ep & Eq).
    unfold at_plus. rewrite Ep, Eq. eexists. reflexivity.
  - intros b Hb. destruct (E b Hb) as (p & q & Ep & Eq). unfold loss_at. cbn [PopL tadd pop_add PopV to_arr arr_of at_]. unfold at_plus. rewrite Ep, Eq. reflexivity.
Qed.
Lemma path_U : copies_problem PopV 2 1 PopU pathV path1.
Proof. destruct (proj1 C61_hypotheses). constructor; assumption. Qed.
Lemma ln_quarter : (-2 <= ln (1 / 4) <= 0)%R.
Proof.
  assert (E4 : (4 <= exp 2)%R).
  { replace 2%R with (1 + 1)%R by ring. rewrite exp_plus. pose proof (exp_ineq1_le 1). apply Rle_trans with (2 * 2)%R; [lra|]. apply Rmult_le_compat; lra. }
  split.
  - rewrite <- (ln_exp (-2)). apply ln_mono; [apply exp_pos|]. replace (-2)%R with (- (2))%R by ring. rewrite exp_Ropp. apply Rle_trans with (/ 4)%R; [apply Rinv_le_contravar; lra|lra].
  - rewrite <- ln_1. apply ln_mono; lra.
Qed.
Lemma ln_heads d v : (-2 <= ln (heads d v) <= 0)%R.
Proof.
  pose proof ln_quarter. assert (ln (1 / 4) <= ln (3 / 4))%R by (apply ln_mono; lra). assert (ln (3 / 4) <= 0)%R by (rewrite <- ln_1; apply ln_mono; lra).
  unfold heads. destruct (Req_EM_T v 1), d; lra.
Qed.
Lemma path_bounded : bounded_path 2 1 PopU coins coin_draws pathV path1.
Proof.
  assert (Hp : forall d v s b, coin_draws d v -> s < 2 -> b < 1 -> In (part PopU s b v) [[0%R]; [1%R]]).
  { intros d v s b Hv Hs Hb. assert (b = 0) as -> by lia. unfold coin_draws in Hv. cbn [In] in Hv. destruct s as [|[|s]]; [| |lia];
      destruct Hv as [<-|[<-|[<-|[<-|[]]]]]; cbn; auto. }
  exists (fun _ z => In z [[0%R]; [1%R]]), 10%R. split; [intros v s b; apply Hp|]. split; [intros k v0 v s b; apply Hp|].
  assert (Hd : forall k z, In z [[0%R]; [1%R]] -> (-2 <= ln (path_density coins path1 k z) <= 2)%R).
  { intros k z Hz. unfold path_density. rewrite ln_exp. assert (exists x, z = [x] /\ (0 <= x <= 1)%R) as (x & -> & Hx) by (destruct Hz as [<-|[<-|[]]]; eexists; (split; [reflexivity|lra])).
    destruct k as [|k]; cbn [coins lw].
    - cbn. pose proof (ln_heads false x). lra.
    - cbn [path1 pb_target]. destruct (S k =? 1); cbn [target_logp]; cbn; [pose proof (ln_heads true x); lra|lra]. }
  intros k z z' Hz Hz'. unfold increment. pose proof (Hd k z Hz). pose proof (Hd (S k) z' Hz').
  assert (Hk : forall d y, In y [[0%R]; [1%R]] -> (-2 <= lw coins (logp OneL d y) <= 0)%R).
  { intros d y [<-|[<-|[]]]; cbn; pose proof (ln_heads d 0); pose proof (ln_heads d 1); lra. }
  pose proof (Hk (pb_rev path1 k z') z Hz). pose proof (Hk (pb_fwd path1 k z) z' Hz'). lra.
Qed.
Example C87_hypotheses : losses_add PopV 1 /\ copies_problem PopV 2 1 PopU pathV path1 /\ bounded_path 2 1 PopU coins coin_draws pathV path1 /\
  forall resample, exists q, trainV resample = Ok q.
Proof. split; [exact PopV_losses|]. split; [exact path_U|]. split; [exact path_bounded|]. intros resample. eexists. reflexivity. Qed.
(** ... with and without resampling, the expected loss is at least - ln (1 + e^2) *)
Example C87_case resample q : trainV resample = Ok q ->
  (expectation PopU (run q VNone callV (st0 PopL)) (minus_loss PopV 0) <= ln (1 + exp 2))%R.
Proof.
  intros Hq. destruct C61_hypotheses as (_ & H2 & H3 & H4 & H5 & _).
  assert (E : integral coins tt (path_density coins path1 2) = (1 + exp 2)%R).
  { cbn [integral coins]. unfold path_density. cbn [path1 pb_target Nat.eqb target_logp coins lw map]. unfold rsum. cbn [fold_right]. rewrite Rmult_0_r, Rmult_1_r, !Rplus_0_r, exp_0. reflexivity. }
  destruct (C87_bound PopL OneL PopL_laws coins coins_laws PopV 2 1 PopU PopU_laws coin_draws PopU_positive pathV path1 (fun _ => tt) (fun d => d)
    true resample 10 2 q VNone callV (st0 PopL) 0) as [A1 A2]; try assumption; try reflexivity; try lia; [exact path_U|exact PopV_losses|right; exact path_bounded|rewrite E; pose proof (exp_pos 2); lra|].
  rewrite E in A2. lra.
Qed.
(** One step, with the draws 0, 1 and then 1, 1: the two particles have weights 1 and 3, so the
    loss is - (ln 3) / 2, and the estimate of the log-evidence is ln 2. *)
Definition train1 : res (inf PopL) :=
  vsmc (L := PopL) (fun d => d) 10 (pb_targets pathV 1) (pb_forwards pathV 1) (pb_reverses pathV 1) (nvo_avo_tensor PopV) true false (systematic PopV false).
Example C87_values : exists q, train1 = Ok q /\
  match first_draw (first_draw (run q VNone callV (st0 PopL)) (col2 0 1)) (col2 1 1) with
  | Leaf (Ok o, s') => exists l, out_loss o = Some l /\ loss_at PopV 0 l = (- (ln 3 / 2))%R /\ log_evidence PopV 2 0 (Ok o, s') = ln 2
  | _ => False
  end.
Proof.
  assert (L1 : ln (1 / 4) = (- 2 * ln 2)%R).
  { replace (1 / 4)%R with (/ (2 * 2))%R by field. rewrite ln_Rinv, ln_mult by lra. ring. }
  assert (L3 : ln (3 / 4) = (ln 3 - 2 * ln 2)%R).
  { replace (3 / 4)%R with (3 * (1 / 4))%R by field. rewrite ln_mult, L1 by lra. ring. }
  eexists. split; [reflexivity|]. ev. eexists. split; [reflexivity|].
  split.
  - ev. destruct (Req_EM_T 1 1) as [_|H]; [|lra]. destruct (Req_EM_T 0 1) as [H|_]; [lra|]. rewrite !heads1, !heads0, L1, L3, exp_0. field.
  - ev. destruct (Req_EM_T 1 1) as [_|H]; [|lra]. destruct (Req_EM_T 0 1) as [H|_]; [lra|]. rewrite !heads1, !heads0, L1, L3.
    f_equal. match goal with |- ((exp ?x + (exp ?y + 0)) / _ = _)%R => replace x with 0%R by ring; replace y with (ln 3) by ring end.
    rewrite exp_0, exp_ln by lra. cbn [INR]. field.
Qed.
