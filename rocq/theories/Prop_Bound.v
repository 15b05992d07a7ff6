(** Property C86: the estimate of the log-evidence is, on average, a lower bound. *)
From Coq Require Import Lra Lia.
From Coquelicot Require Import Coquelicot.
From Verif Require Import SpecBound Thm_Bound Thm_Particles Thm_Resampled InstancesPop SpecSampler Thm_Sampler SpecTotal Thm_Total SpecGibbs Thm_Sweeps
  Prop_Metrics Prop_Resample Prop_Total Prop_Proper Prop_Particles Prop_Observed Prop_Sampler.
Open Scope nat_scope.

(** One particle: the average log-weight is at most the logarithm of the normalising constant
    of the target (its total unnormalised density), which is the average weight. *)
Theorem C86_single : forall (L : lib) (HL : lib_laws L) (M : measures L) (ML : measure_laws M) (MP : positive_sums M) (sp : string -> Sp M)
    t c kws s,
  weightable M sp t c kws -> wf_dict kws -> clean s -> clash ["self"; "c"; "fn"] kws = false ->
  (forall e s', ~ raises (run t c kws) s e s') ->
  (0 < density_sum M (target t c kws) (fun _ _ => 1))%R ->
  (expect M (run t c kws s) (log_weight_of M) <= ln (density_sum M (target t c kws) (fun _ _ => 1)))%R.
Proof. intros. eapply single_bound; eassumption. Qed.
Print Assumptions C86_single.

(** A population, without Resample: for every batch entry, the logarithm of the average weight
    of its particles is on average at most the logarithm of the normalising constant. *)
Theorem C86_importance : forall (LV LS : lib) (HL : lib_laws LV) (M : measures LS) (ML : measure_laws M)
    (W : array_view LV) N B (P : population LV LS) (PL : population_laws W N B P M) supp (PP : positive_population W N B P supp)
    (sp : string -> Sp M) t t1 c c1 kws st b,
  0 < N -> b < B -> no_resample t ->
  copies W N B P t t1 -> smc M sp t1 c1 (kmap (part P 0 0) kws) ->
  all_tensors (particles W N B) c -> (forall s, s < N -> vmap (part P s b) c = c1) ->
  (forall k v, In (k, v) kws -> no_tensor v) ->
  kwarg "sample_dims" VNone kws = VInt 0 -> kwarg "batch_dim" VNone kws = VInt 1 ->
  wf_dict kws -> clean st -> clash ["self"; "c"; "fn"] kws = false ->
  (forall e s', ~ possible W N B (run t c kws st) (Err e, s')) ->
  (0 < density_sum M (target t1 c1 (kmap (part P 0 0) kws)) (fun _ _ => 1))%R ->
  (expectation P (run t c kws st) (log_evidence W N b) <=
   ln (density_sum M (target t1 c1 (kmap (part P 0 0) kws)) (fun _ _ => 1)))%R.
Proof.
  intros. eapply (bound_nr M ML W N B P PL supp PP); try assumption; [lia|apply nr_run; assumption|].
  eapply C59_normalising_constant; eassumption.
Qed.
Print Assumptions C86_importance.

(** A population, with any number of Resample steps, if the log-weights are bounded. *)
Theorem C86_resampled : forall (LV LS : lib) (HL : lib_laws LV) (M : measures LS) (ML : measure_laws M)
    (W : array_view LV) N B (P : population LV LS) (PL : population_laws W N B P M) supp (PP : positive_population W N B P supp)
    (sp : string -> Sp M) t t1 c c1 kws st b,
  0 < N -> b < B ->
  copies W N B P t t1 -> smc M sp t1 c1 (kmap (part P 0 0) kws) ->
  all_tensors (particles W N B) c -> (forall s, s < N -> vmap (part P s b) c = c1) ->
  (forall k v, In (k, v) kws -> no_tensor v) ->
  kwarg "sample_dims" VNone kws = VInt 0 -> kwarg "batch_dim" VNone kws = VInt 1 ->
  wf_dict kws -> clean st -> clash ["self"; "c"; "fn"] kws = false ->
  (forall e s', ~ possible W N B (run t c kws st) (Err e, s')) ->
  bounded_weights W N B supp b (run t c kws st) ->
  (0 < density_sum M (target t1 c1 (kmap (part P 0 0) kws)) (fun _ _ => 1))%R ->
  (expectation P (run t c kws st) (log_evidence W N b) <=
   ln (density_sum M (target t1 c1 (kmap (part P 0 0) kws)) (fun _ _ => 1)))%R.
Proof.
  intros LV LS HL M ML W N B P PL supp PP sp t t1 c c1 kws st b HN Hb Hc Hs Ha Hp Hk Hsd Hbd Hwf Hcl Hcs Hr [K HK] HZ.
  eapply (bound_within M ML W N B P PL supp PP HN ltac:(lia)) with (K := K); try assumption.
  eapply C59_normalising_constant; eassumption.
Qed.
Print Assumptions C86_resampled.

Lemma loop_plain {L : lib} dd loss_fn avo rs base n l : forall k (q : inf L),
  Forall (fun x => no_resample (fst x) /\ no_resample (fst (snd x)) /\ no_resample (snd (snd x))) l -> no_resample q ->
  no_resample (vsmc_loop dd loss_fn avo false rs base n k l q).
Proof.
  induction l as [|[f [r p]] l IH]; intros k q H Hq; cbn [vsmc_loop]; [exact Hq|].
  inversion H as [|x y (Hf & Hr & Hp) Hl]; subst. cbn [fst snd] in *. apply IH; [exact Hl|]. unfold vsmc_step. cbn [andb no_resample]. tauto.
Qed.
Lemma vsmc_plain {L : lib} (pb : problem L) dd base K loss_fn avo rs q :
  vsmc dd base (pb_targets pb K) (pb_forwards pb K) (pb_reverses pb K) loss_fn avo false rs = Ok q -> no_resample q.
Proof.
  unfold vsmc, pb_targets. intros [= <-]. apply loop_plain; [|exact I].
  apply Forall_forall. intros [f [r p]] Hx. cbn [fst snd]. apply in_combine_l in Hx as Hf. apply in_combine_r in Hx. apply in_combine_l in Hx as Hr. apply in_combine_r in Hx.
  unfold pb_forwards, pb_reverses in *. apply in_map_iff in Hf, Hr, Hx. destruct Hf as (? & <- & _), Hr as (? & <- & _), Hx as (i & <- & _).
  split; [exact I|]. split; [exact I|]. destruct (pb_target pb i); exact I.
Qed.

(** The annealing sampler, without resampling or with bounded log-weights: the logarithm of the
    average final weight is on average at most the logarithm of the normalising constant of
    the last target. *)
Theorem C86_sampler : forall (LV LS : lib) (HL : lib_laws LV) (M : measures LS) (ML : measure_laws M)
    (W : array_view LV) N B (P : population LV LS) (PL : population_laws W N B P M) supp (PP : positive_population W N B P supp)
    (pb : problem LV) (pb1 : problem LS) (Z : nat -> Sp M) (detach_dist : D LV -> D LV)
    (loss_fn : out LV -> res (T LV)) (avo resample : bool) base K q c kws st b,
  0 < N -> b < B -> copies_problem W N B P pb pb1 -> path_spaces M Z pb1 ->
  (forall rep' b' p, lj_ok LV rep' b' p = true) ->
  (forall d v, tensor_equal LV (logp LV d v) (logp LV (detach_dist d) v) = true) ->
  (forall d s b', s < N -> b' < B -> dpart P s b' (detach_dist d) = dpart P s b' d) ->
  (forall o px, out_px o = Some px -> exists l, loss_fn o = Ok l) ->
  identities pb base K ->
  kwarg "sample_dims" VNone kws = VInt 0 -> kwarg "batch_dim" VNone kws = VInt 1 -> plain_call kws -> at_rest st ->
  vsmc detach_dist base (pb_targets pb K) (pb_forwards pb K) (pb_reverses pb K) loss_fn avo resample (systematic W false) = Ok q ->
  resample = false \/ bounded_weights W N B supp b (run q c kws st) ->
  (0 < integral M (Z K) (path_density M pb1 K))%R ->
  (expectation P (run q c kws st) (log_evidence W N b) <= ln (integral M (Z K) (path_density M pb1 K)))%R.
Proof.
  intros LV LS HL M ML W N B P PL supp PP pb pb1 Z dd loss_fn avo resample base K q c kws st b HN Hb HC HZ Hlj H1 H2 Hl Hid Hsd Hbd Hpl Hr Hq Hor Hpos.
  assert (HE : expectation P (run q c kws st) (weighted_average W N P b (fun _ _ => 1%R)) = integral M (Z K) (path_density M pb1 K)).
  { eapply C61_normalising_constant; eassumption. }
  assert (HQ : forall e s', ~ possible W N B (run q c kws st) (Err e, s')).
  { intros e s' Hx. eapply C61_never_raises in Hx; try eassumption. destruct Hx as (o & r & Hx & _). discriminate. }
  destruct Hor as [->|[U HU]].
  - eapply (bound_nr M ML W N B P PL supp PP); try assumption; [lia|]. apply nr_run. eapply vsmc_plain, Hq.
  - eapply (bound_within M ML W N B P PL supp PP HN ltac:(lia)) with (K := U); assumption.
Qed.
Print Assumptions C86_sampler.
(** This logarithm is what log_Z_hat computes from the log-weights of the batch entry. *)
Theorem C86_log_Z_hat : forall (LV : lib) (W : array_view LV) N b o s',
  0 < N ->
  log_Z_hat (map (fun s => Fin (particle_weight W s b (out_lw o))) (seq 0 N)) = Fin (log_evidence W N b (Ok o, s')).
Proof.
  intros LV W N b o s' HN. unfold log_evidence. cbn [fst].
  replace (map (fun s => Fin (particle_weight W s b (out_lw o))) (seq 0 N)) with (reals (map (fun s => particle_weight W s b (out_lw o)) (seq 0 N)))
    by (unfold reals; apply map_map).
  rewrite C35_log_mean by (destruct N; [lia|discriminate]). rewrite map_map, map_length, seq_length. reflexivity.
Qed.
Print Assumptions C86_log_Z_hat.

(** ** an instance: two particles, coins, and the upper integral over the offsets: the infimum
    of the integrals of the Riemann-integrable functions above *)
Definition above (f : R -> R) (l : R) : Prop := exists g, is_RInt g 0 1 l /\ forall u, (0 <= u < 1)%R -> (f u <= g u)%R.
Definition upper (f : R -> R) : R := real (Glb_Rbar (above f)).
Definition within (K : R) (f : R -> R) : Prop := forall u, (0 <= u < 1)%R -> (- K <= f u <= K)%R.
Lemma int_const (K : R) : is_RInt (V := R_NormedModule) (fun _ : R => K) 0 1 K.
Proof.
  assert (H := is_RInt_const (V := R_NormedModule) 0 1 K). 
  match type of H with is_RInt _ _ _ ?x => replace x with K in H by (unfold scal; cbn; unfold mult; cbn; ring) end. exact H.
Qed.
Lemma above_const f K : within K f -> above f K.
Proof.
  intros H. exists (fun _ => K). split; [|intros u Hu; apply H, Hu].
  apply int_const.
Qed.
Lemma above_ge f g l l' : is_RInt g 0 1 l -> (forall u, (0 <= u < 1)%R -> (g u <= f u)%R) -> above f l' -> (l <= l')%R.
Proof.
  intros Hg H (h & Hh & Hl). rewrite <- (is_RInt_unique _ _ _ _ Hg), <- (is_RInt_unique _ _ _ _ Hh).
  apply RInt_le; [lra|exists l; exact Hg|exists l'; exact Hh|]. intros u Hu. apply Rle_trans with (f u); [apply H|apply Hl]; lra.
Qed.
Lemma upper_spec f K : within K f -> (forall l, above f l -> (upper f <= l)%R) /\ (forall m, (forall l, above f l -> (m <= l)%R) -> (m <= upper f)%R).
Proof.
  intros H. unfold upper. destruct (Glb_Rbar_correct (above f)) as [H1 H2].
  assert (Hlow : forall l, above f l -> (- K <= l)%R).
  { intros l Hl. apply (above_ge f (fun _ => - K)%R) with (l := (- K)%R) in Hl; [exact Hl| |intros u Hu; apply H, Hu].
    apply int_const. }
  pose proof (H1 K (above_const f K H)) as Hk. pose proof (H2 (Finite (- K)) Hlow) as Hk'.
  destruct (Glb_Rbar (above f)) as [g| |]; try contradiction. cbn [real]. split.
  - intros l Hl. exact (H1 l Hl).
  - intros m Hm. exact (H2 (Finite m) Hm).
Qed.
Lemma upper_integral g l : is_RInt g 0 1 l -> upper g = l.
Proof.
  intros Hg. unfold upper. destruct (Glb_Rbar_correct (above g)) as [H1 H2].
  assert (Ha : above g l) by (exists g; split; [exact Hg|intros; lra]).
  pose proof (H1 l Ha) as A. pose proof (H2 (Finite l) (fun l' Hl' => above_ge g g l l' Hg (fun u _ => Rle_refl _) Hl')) as C.
  destruct (Glb_Rbar (above g)) as [x| |]; try contradiction. cbn in *. lra.
Qed.
Lemma upper_ext f g : (forall u, (0 <= u < 1)%R -> f u = g u) -> upper f = upper g.
Proof.
  intros H. unfold upper. f_equal. apply Glb_Rbar_eqset. intros l. split; intros (h & Hh & Hl); exists h; (split; [exact Hh|]); intros u Hu.
  - rewrite <- H by exact Hu. apply Hl, Hu.
  - rewrite H by exact Hu. apply Hl, Hu.
Qed.
Lemma upper_mono f g K : within K f -> within K g -> (forall u, (0 <= u < 1)%R -> (f u <= g u)%R) -> (upper f <= upper g)%R.
Proof.
  intros Hf Hg H. apply (upper_spec g K Hg). intros l (h & Hh & Hl). apply (upper_spec f K Hf). exists h. split; [exact Hh|].
  intros u Hu. apply Rle_trans with (g u); [apply H|apply Hl]; exact Hu.
Qed.
Lemma above_affine f a c l : above f l -> (0 <= a)%R -> above (fun u => a * f u + c)%R (a * l + c)%R.
Proof.
  intros (h & Hh & Hl) Ha. exists (fun u => a * h u + c)%R. split.
  - apply (is_RInt_plus (V := R_NormedModule) (fun u => a * h u)%R (fun _ => c)); [apply (is_RInt_scal (V := R_NormedModule) h 0 1 a l Hh)|].
    apply int_const.
  - intros u Hu. pose proof (Rmult_le_compat_l a _ _ Ha (Hl u Hu)). lra.
Qed.
Lemma affine_within f a c K : within K f -> (0 <= a)%R -> within (a * K + Rabs c) (fun u => a * f u + c)%R.
Proof.
  intros H Ha u Hu. destruct (H u Hu) as [H1 H2]. pose proof (Rmult_le_compat_l a _ _ Ha H1). pose proof (Rmult_le_compat_l a _ _ Ha H2).
  pose proof (Rle_abs c). pose proof (Rle_abs (- c)). rewrite Rabs_Ropp in *. lra.
Qed.
Lemma upper_affine f a c K : within K f -> (0 <= a)%R -> upper (fun u => a * f u + c)%R = (a * upper f + c)%R.
Proof.
  intros H [Ha | <-].
  - apply Rle_antisym.
    + assert (G : ((upper (fun u => a * f u + c) - c) / a <= upper f)%R).
      { apply (upper_spec f K H). intros l Hl. apply Rmult_le_reg_l with a; [exact Ha|].
        replace (a * ((upper (fun u => a * f u + c) - c) / a))%R with (upper (fun u => a * f u + c)%R - c)%R by (field; lra).
        assert (upper (fun u => a * f u + c) <= a * l + c)%R; [|lra].
        apply (upper_spec _ _ (affine_within f a c K H ltac:(lra))). apply above_affine; [exact Hl|lra]. }
      apply (Rmult_le_compat_l a) in G; [|lra].
      replace (a * ((upper (fun u => a * f u + c) - c) / a))%R with (upper (fun u => a * f u + c)%R - c)%R in G by (field; lra). lra.
    + apply (upper_spec _ _ (affine_within f a c K H ltac:(lra))). intros l Hl.
      assert (G : (upper f <= / a * l + - (c / a))%R).
      { apply (upper_spec f K H). apply (above_affine _ (/ a) (- (c / a))%R) in Hl; [|left; apply Rinv_0_lt_compat, Ha].
        destruct Hl as (h & Hh & Hl). exists h. split; [exact Hh|]. intros u Hu. apply Rle_trans with (/ a * (a * f u + c) + - (c / a))%R; [|apply Hl, Hu].
        right. field. lra. }
      apply (Rmult_le_compat_l a) in G; [|lra]. replace (a * (/ a * l + - (c / a)))%R with (l - c)%R in G by (field; lra). lra.
  - rewrite (upper_ext _ (fun _ => c)) by (intros; ring). rewrite Rmult_0_l, Rplus_0_l. apply upper_integral.
    apply int_const.
Qed.

Definition PopU : population PopL OneL := mkPopulation PopL OneL (part PopP) (dpart PopP) (mean PopP)
  (fun f => upper (fun u => f (offset_at u))).
Definition coin_draws (_ : nat -> nat -> bool) (v : ten) : Prop := In v [col2 0 0; col2 0 1; col2 1 0; col2 1 1].
Lemma offset_offsets u : (0 <= u < 1)%R -> offsets PopV 1 (offset_at u).
Proof. intros H b Hb. exact H. Qed.
Lemma PopU_laws : population_laws PopV 2 1 PopU coins.
Proof.
  destruct PopP_laws. constructor; try assumption.
  - intros f g H. cbn [mean_offset PopU]. apply upper_ext. intros u Hu. apply H. apply offset_offsets, Hu.
  - intros b g l Hb Hg. cbn [mean_offset PopU]. apply upper_integral. exact Hg.
Qed.
Lemma PopU_positive : positive_population PopV 2 1 PopU coin_draws.
Proof.
  constructor.
  - intros d v H. cbn [In coin_draws] in H. destruct H as [<-|[<-|[<-|[<-|[]]]]]; apply col2_particles.
  - intros d f g H. cbn [mean PopU PopP].
    pose proof (heads_pos (d 0%nat 0%nat) 0). pose proof (heads_pos (d 0%nat 0%nat) 1). pose proof (heads_pos (d 1%nat 0%nat) 0). pose proof (heads_pos (d 1%nat 0%nat) 1).
    assert (G : forall p q v, (0 < p)%R -> (0 < q)%R -> coin_draws d v -> (p * q * f v <= p * q * g v)%R).
    { intros p q v Hp Hq Hv. apply Rmult_le_compat_l; [|apply H, Hv]. left. apply Rmult_lt_0_compat; assumption. }
    repeat apply Rplus_le_compat; apply G; try assumption; unfold coin_draws; cbn [In]; auto.
  - intros f g [K1 H1] [K2 H2] H. cbn [mean_offset PopU]. apply (upper_mono _ _ (Rmax K1 K2)).
    + intros u Hu. pose proof (H1 _ (offset_offsets u Hu)). pose proof (Rmax_l K1 K2). lra.
    + intros u Hu. pose proof (H2 _ (offset_offsets u Hu)). pose proof (Rmax_r K1 K2). lra.
    + intros u Hu. apply H, offset_offsets, Hu.
  - intros f a c [K HK] Ha. cbn [mean_offset PopU]. apply (upper_affine (fun u => f (offset_at u)) a c K); [|exact Ha].
    intros u Hu. apply HK, offset_offsets, Hu.
Qed.

Lemma copies_model_U s b m m1 : copies_model PopV 2 1 PopP s b m m1 -> copies_model PopV 2 1 PopU s b m m1.
Proof.
  induction 1 as [o Ho|a d rep k k1 Hk IH|a d v rep k k1 Hv Hk IH].
  - apply (copies_ret PopV 2 1 PopU s b o Ho).
  - apply (copies_sample PopV 2 1 PopU s b a d rep k k1 IH).
  - apply (copies_observe PopV 2 1 PopU s b a d v rep k k1 Hv IH).
Qed.
Lemma copies_U t t1 : copies PopV 2 1 PopP t t1 -> copies PopV 2 1 PopU t t1.
Proof.
  induction 1.
  - apply (copies_prog PopV 2 1 PopU). intros s b c kws Hs Hb Hc. apply copies_model_U. exact (H s b c kws Hs Hb Hc).
  - apply (copies_extend PopV 2 1 PopU); assumption.
  - apply (copies_compose PopV 2 1 PopU); assumption.
  - apply (copies_propose PopV 2 1 PopU); assumption.
  - apply (copies_resample PopV 2 1 PopU); assumption.
Qed.
Definition again1 : inf OneL :=
  IResample (L := OneL) 4 (IPropose (L := OneL) 5 (IProg (L := OneL) 6 sig_model (sample1 true)) 
     (ICompose (L := OneL) 9 (IProg (L := OneL) 8 sig_model aux1) (IProg (L := OneL) 7 sig_model (sample1 false)) opts1) opts1 None false)
     VNone None no_resampler false.
Lemma again_copies : copies PopV 2 1 PopU againV again1.
Proof.
  apply copies_U. assert (H := smc_copies). unfold smcV, movedV, smc1 in H.
  inversion H; subst. match goal with H : copies _ _ _ _ (ICompose _ _ againV _) _ |- _ => inversion H; subst end. assumption.
Qed.
Lemma again_covered : smc coins (fun _ => tt) again1 VNone (kmap (part PopU 0 0) dimsV).
Proof. exact (proj1 (proj1 (proj2 smc_covered))). Qed.

(** every run returns: what the first part of smcV does cannot raise *)
Lemma again_quiet e s' : ~ possible PopV 2 1 (run againV VNone dimsV (st0 PopL)) (Err e, s').
Proof.
  destruct C59_hypotheses as (_ & _ & _ & Hp & Hr & _).
  assert (Hk : exists k, well_formed (particle_sorts PopV 2 1) dimsV againV k k).
  { exists (mkContract ["x"] ["x"] true (Some [])). unfold againV. apply (wf_resample _ _ _ _ _ _ _ _ _ (mkContract ["x"] ["x"] true (Some [])) []); try reflexivity; [|intros a []|].
    * unfold firstV. apply (wf_propose _ _ _ _ _ _ _ (mkContract ["x"] ["x"] false (Some [])) (mkContract ["x"] ["x"] false (Some []))
        (mkContract ["x"; "w"] ["x"; "w"] false (Some [])) (mkContract ["x"; "w"] ["x"; "w"] false (Some []))).
      -- apply wf_program; [reflexivity|]. intros c kws _ _. unfold sampleV. steps. apply (fine_ret (L := PopL)).
         split; [in_list|]. split; [in_list|]. split; [discriminate|]. output.
      -- apply (wf_compose _ _ _ _ _ _ (mkContract ["x"] ["x"] false (Some [])) (mkContract ["x"] ["x"] false (Some []))
           (mkContract ["w"] ["w"] false (Some [])) (mkContract ["w"] ["w"] false (Some []))).
         ++ apply wf_program; [reflexivity|]. intros c kws _ _. unfold sampleV. steps. apply (fine_ret (L := PopL)).
            split; [in_list|]. split; [in_list|]. split; [discriminate|]. output.
         ++ apply wf_program; [reflexivity|]. intros c kws _ _. unfold auxV. steps. apply (fine_ret (L := PopL)).
            split; [in_list|]. split; [in_list|]. split; [discriminate|]. output.
         ++ intros a Ha Hb. cbn in Ha, Hb. intuition congruence.
         ++ intros r l. eexists. reflexivity.
      -- reflexivity.
      -- intros [].
      -- intros r l. eexists. reflexivity.
      -- right. right. exists "x". in_list.
    * cbn [dimsV kwarg dget]. eapply C60_systematic; [apply PopP_laws|lia]. }
  destruct Hk as [k Wf].
  eapply (C60_populations PopL OneL PopL_laws coins PopV 2 1 PopP PopP_laws); try eassumption; try reflexivity; try exact I; [lia|].
  cbn. destruct (Req_EM_T 0 0); congruence.
Qed.

Lemma ancestors_two l0 l1 u : (0 <= u < 1)%R -> In (ancestors_of [Fin l0; Fin l1] u) [[0; 0]; [0; 1]; [1; 1]].
Proof.
  intros Hu. destruct (C28_ancestors_valid [Fin l0; Fin l1] u) as (Hn & Hi & Ho); [exists l0; cbn; auto|exact Hu|].
  specialize (Ho 0 1). cbn [length] in *. destruct (ancestors_of [Fin l0; Fin l1] u) as [|a [|b [|c l]]]; try discriminate.
  assert (a < 2) by (apply Hi; cbn; auto). assert (b < 2) by (apply Hi; cbn; auto). cbn [nth] in Ho.
  destruct a as [|[|a]], b as [|[|b]]; try lia; cbn; auto.
Qed.
(** given the draws of x and w, the log-weights do not depend on the offset *)
Lemma again_weights a b a' b' : exists x, forall v, offsets PopV 1 v ->
  match first_draw (first_draw (first_draw (run againV VNone dimsV (st0 PopL)) (col2 a b)) (col2 a' b')) v with
  | Leaf (Ok o, _) => out_lw o = x
  | Leaf _ => True
  | _ => False
  end.
Proof.
  eexists. intros v H. specialize (H 0 Nat.lt_0_1). ev.
  match goal with |- context [ancestors_of ?c ?v] => assert (E := ancestors_two _ _ v H : In (ancestors_of c v) _); cbn [In] in E;
    destruct E as [E|[E|[E|[]]]]; rewrite <- E; clear E; ev; reflexivity end.
Qed.
Lemma again_shape : match run againV VNone dimsV (st0 PopL) with
  | Draw (DrawDist _ _ _) k1 => forall a b, match k1 (col2 a b) with
    | Draw (DrawDist _ _ _) k2 => forall a' b', match k2 (col2 a' b') with Draw DrawRand _ => True | _ => False end
    | _ => False end
  | _ => False end.
Proof. ev. intros a b. ev. intros a' b'. ev. exact I. Qed.
Lemma finite_bound {A} (g : A -> R) l : exists K, forall a, In a l -> (- K <= g a <= K)%R.
Proof.
  induction l as [|x l [K IH]]; [exists 0%R; intros a []|]. exists (Rmax K (Rabs (g x))). intros a [<-|Ha].
  - pose proof (Rmax_r K (Rabs (g x))). pose proof (Rle_abs (g x)). pose proof (Rle_abs (- g x)). rewrite Rabs_Ropp in *. lra.
  - pose proof (Rmax_l K (Rabs (g x))). pose proof (IH a Ha). lra.
Qed.
Lemma finite_all {A} (Q : A -> R -> Prop) l : (forall a, In a l -> exists K, Q a K) -> (forall a K K', (K <= K')%R -> Q a K -> Q a K') -> exists K, forall a, In a l -> Q a K.
Proof.
  intros H Hm. induction l as [|x l IH]; [exists 0%R; intros a []|]. destruct IH as [K IH]; [intros a Ha; apply H; right; exact Ha|].
  destruct (H x (or_introl eq_refl)) as [K' HK']. exists (Rmax K K'). intros a [<-|Ha].
  - apply (Hm x K'); [apply Rmax_r|exact HK'].
  - apply (Hm a K); [apply Rmax_l|apply IH, Ha].
Qed.
Definition pairs : list (R * R) := [(0, 0); (0, 1); (1, 0); (1, 1)]%R.
Lemma drawn_pair d v : coin_draws d v -> exists p, In p pairs /\ v = col2 (fst p) (snd p).
Proof.
  unfold coin_draws. cbn [In]. intros [<-|[<-|[<-|[<-|[]]]]]; [exists (0, 0)%R|exists (0, 1)%R|exists (1, 0)%R|exists (1, 1)%R]; cbn; auto 10.
Qed.
Lemma again_bounded : bounded_weights PopV 2 1 coin_draws 0 (run againV VNone dimsV (st0 PopL)).
Proof.
  pose proof again_shape as H1.
  destruct (finite_all (fun (x : (R * R) * (R * R)) K => forall v, offsets PopV 1 v ->
      match first_draw (first_draw (first_draw (run againV VNone dimsV (st0 PopL)) (col2 (fst (fst x)) (snd (fst x)))) (col2 (fst (snd x)) (snd (snd x)))) v with
      | Leaf (Ok o, _) => forall s, s < 2 -> (- K <= particle_weight PopV s 0 (out_lw o) <= K)%R
      | Leaf _ => True
      | _ => False
      end) (list_prod pairs pairs)) as [K HK].
  - intros [[a b] [a' b']] _. cbn [fst snd]. destruct (again_weights a b a' b') as [x Hx].
    destruct (finite_bound (fun s => particle_weight PopV s 0 x) (seq 0 2)) as [K HK]. exists K. intros v Hv. specialize (Hx v Hv).
    destruct (first_draw _ v) as [[[o|e] s']|]; try exact Hx. intros s Hs. rewrite Hx. apply HK, in_seq. lia.
  - intros [[a b] [a' b']] K K' Hle HQ v Hv. specialize (HQ v Hv). cbn [fst snd] in *.
    destruct (first_draw _ v) as [[[o|e] s']|]; try exact HQ. intros s Hs. specialize (HQ s Hs). lra.
  - exists K. intros o s' Ha. destruct (run againV VNone dimsV (st0 PopL)) as [|[d1 r1 h1|] k1]; try contradiction.
    inversion Ha as [|? ? ? ? v1 ? Hv1 Ha1|]; subst. destruct (drawn_pair _ _ Hv1) as ([a b] & Hp & ->). specialize (H1 a b). cbn [fst snd] in *.
    destruct (k1 (col2 a b)) as [|[d2 r2 h2|] k2] eqn:E2; try contradiction.
    inversion Ha1 as [|? ? ? ? v2 ? Hv2 Ha2|]; subst. destruct (drawn_pair _ _ Hv2) as ([a' b'] & Hp' & ->). specialize (H1 a' b'). cbn [fst snd] in *.
    destruct (k2 (col2 a' b')) as [|[|] k3] eqn:E3; try contradiction. inversion Ha2 as [| |? v3 ? Hv3 Ha3]; subst.
    specialize (HK ((a, b), (a', b')) (in_prod _ _ _ _ Hp Hp') v3 Hv3). cbn [fst snd first_draw] in HK. rewrite E2 in HK. cbn [first_draw] in HK. rewrite E3 in HK. cbn [first_draw] in HK.
    destruct (k3 v3) as [x|]; [|contradiction]. inversion Ha3; subst. exact HK.
Qed.
Example C86_hypotheses :
  population_laws PopV 2 1 PopU coins /\ positive_population PopV 2 1 PopU coin_draws /\
  copies PopV 2 1 PopU againV again1 /\ smc coins (fun _ => tt) again1 VNone (kmap (part PopU 0 0) dimsV) /\
  (forall e s', ~ possible PopV 2 1 (run againV VNone dimsV (st0 PopL)) (Err e, s')) /\
  bounded_weights PopV 2 1 coin_draws 0 (run againV VNone dimsV (st0 PopL)).
Proof.
  split; [exact PopU_laws|]. split; [exact PopU_positive|]. split; [exact again_copies|]. split; [exact again_covered|]. split; [exact again_quiet|exact again_bounded].
Qed.
(** with resampling: nothing is observed, so the bound is ln 1 *)
Example C86_case_resampled : (expectation PopU (run againV VNone dimsV (st0 PopL)) (log_evidence PopV 2 0) <= 0)%R.
Proof.
  rewrite <- ln_1.
  assert (E : density_sum coins (target again1 VNone (kmap (part PopU 0 0) dimsV)) (fun _ _ => 1%R) = 1%R).
  { unfold again1. cbn [target]. unfold sample1. cbn [density_sum]. cbn [integral coins space]. rewrite !coin_mass, !heads1, !heads0. lra. }
  rewrite <- E.
  destruct C59_hypotheses as (_ & _ & _ & Hp & [Hr _] & _).
  apply (C86_resampled PopL OneL PopL_laws coins coins_laws PopV 2 1 PopU PopU_laws coin_draws PopU_positive (fun _ => tt) againV again1 VNone VNone dimsV (st0 PopL) 0);
    try apply C86_hypotheses; try assumption; try reflexivity; try lia; try exact I;
    [intros k v H; cbn in H; destruct H as [[= <- <-]|[[= <- <-]|[]]]; exact I|apply Hp|].
  rewrite E. lra.
Qed.

(** without resampling: smcV with its Resample removed, whose target observes y *)
Definition plainV : inf PopL := IPropose (L := PopL) 0 (IProg (L := PopL) 1 sig_model finalV)
  (ICompose (L := PopL) 2 (IProg (L := PopL) 3 sig_model moveV) firstV optsV) optsV None false.
Definition plain1 : inf OneL :=
  IPropose (L := OneL) 0 (IProg (L := OneL) 1 sig_model final1)
    (ICompose (L := OneL) 2 (IProg (L := OneL) 3 sig_model move1)
       (IPropose (L := OneL) 5 (IProg (L := OneL) 6 sig_model (sample1 true))
          (ICompose (L := OneL) 9 (IProg (L := OneL) 8 sig_model aux1) (IProg (L := OneL) 7 sig_model (sample1 false)) opts1) opts1 None false)
       opts1) opts1 None false.
Lemma plain_copies : copies PopV 2 1 PopU plainV plain1.
Proof.
  apply copies_U. assert (H := smc_copies). unfold smcV, movedV, againV, smc1 in H. unfold plainV, plain1.
  inversion H; subst. match goal with H : copies _ _ _ _ (ICompose _ _ _ _) _ |- _ => inversion H; subst end.
  match goal with H : copies _ _ _ _ (IResample _ _ _ _ _ _) _ |- _ => inversion H; subst end.
  constructor; try assumption. constructor; assumption.
Qed.
Lemma plain_covered : smc coins (fun _ => tt) plain1 VNone (kmap (part PopU 0 0) dimsV).
Proof.
  destruct smc_covered as (H1 & ((Hq & _) & Hm) & HC). split; [exact H1|]. split; [split; [exact Hq|exact Hm]|exact HC].
Qed.
Lemma plain_quiet e s' : ~ possible PopV 2 1 (run plainV VNone dimsV (st0 PopL)) (Err e, s').
Proof.
  destruct C59_hypotheses as (_ & _ & _ & Hp & Hr & _).
  assert (Hk : exists k, well_formed (particle_sorts PopV 2 1) dimsV plainV k k).
  { eexists. unfold plainV.
    apply (wf_propose _ _ _ _ _ _ _ (mkContract ["x"; "z"; "y"] ["x"; "z"] true (Some [])) (mkContract ["x"; "z"; "y"] ["x"; "z"] true (Some []))
      (mkContract ["x"; "z"] ["x"; "z"] true (Some [])) (mkContract ["x"; "z"] ["x"; "z"] true (Some []))).
    - apply wf_program; [reflexivity|]. intros c kws _ _. unfold finalV. steps. apply (fine_ret (L := PopL)).
      split; [in_list|]. split; [in_list|]. split; [intros _; exists "y"; in_list|]. output.
    - apply (wf_compose _ _ _ _ _ _ (mkContract ["x"] ["x"] true (Some [])) (mkContract ["x"] ["x"] true (Some []))
        (mkContract ["z"] ["z"] false (Some [])) (mkContract ["z"] ["z"] false (Some []))).
      + unfold firstV. apply (wf_propose _ _ _ _ _ _ _ (mkContract ["x"] ["x"] false (Some [])) (mkContract ["x"] ["x"] false (Some []))
            (mkContract ["x"; "w"] ["x"; "w"] false (Some [])) (mkContract ["x"; "w"] ["x"; "w"] false (Some []))).
          -- apply wf_program; [reflexivity|]. intros c kws _ _. unfold sampleV. steps. apply (fine_ret (L := PopL)).
             split; [in_list|]. split; [in_list|]. split; [discriminate|]. output.
          -- apply (wf_compose _ _ _ _ _ _ (mkContract ["x"] ["x"] false (Some [])) (mkContract ["x"] ["x"] false (Some []))
               (mkContract ["w"] ["w"] false (Some [])) (mkContract ["w"] ["w"] false (Some []))).
             ++ apply wf_program; [reflexivity|]. intros c kws _ _. unfold sampleV. steps. apply (fine_ret (L := PopL)).
                split; [in_list|]. split; [in_list|]. split; [discriminate|]. output.
             ++ apply wf_program; [reflexivity|]. intros c kws _ _. unfold auxV. steps. apply (fine_ret (L := PopL)).
                split; [in_list|]. split; [in_list|]. split; [discriminate|]. output.
             ++ intros a Ha Hb. cbn in Ha, Hb. intuition congruence.
             ++ intros r l. eexists. reflexivity.
          -- reflexivity.
          -- intros [].
          -- intros r l. eexists. reflexivity.
          -- right. right. exists "x". in_list.
      + apply wf_program; [reflexivity|]. intros c kws _ _. unfold moveV. steps. apply (fine_ret (L := PopL)).
        split; [in_list|]. split; [in_list|]. split; [discriminate|]. output.
      + intros a Ha Hb. cbn in Ha, Hb. intuition congruence.
      + intros r l. eexists. reflexivity.
    - reflexivity.
    - intros [].
    - intros r l. eexists. reflexivity.
    - left. reflexivity. }
  destruct Hk as [k Wf].
  eapply (C60_populations PopL OneL PopL_laws coins PopV 2 1 PopP PopP_laws); try eassumption; try reflexivity; try exact I; [lia|].
  cbn. destruct (Req_EM_T 0 0); congruence.
Qed.
Example C86_case_importance : no_resample plainV /\ (expectation PopU (run plainV VNone dimsV (st0 PopL)) (log_evidence PopV 2 0) <= ln (9 / 16))%R.
Proof.
  split; [cbn; tauto|].
  assert (E : density_sum coins (target plain1 VNone (kmap (part PopU 0 0) dimsV)) (fun _ _ => 1%R) = (9 / 16)%R).
  { unfold plain1. cbn [target]. unfold final1. cbn [density_sum]. cbn [integral coins space]. rewrite !coin_mass.
    assert (E0 : coin1 [0%R] = false) by (unfold coin1; cbn; destruct (Req_EM_T 0 1); [lra|reflexivity]).
    assert (E1 : coin1 [1%R] = true) by (unfold coin1; cbn; destruct (Req_EM_T 1 1); [reflexivity|congruence]).
    rewrite E0, E1, !heads1, !heads0. lra. }
  rewrite <- E.
  destruct C59_hypotheses as (_ & _ & _ & Hp & [Hr _] & _).
  apply (C86_importance PopL OneL PopL_laws coins coins_laws PopV 2 1 PopU PopU_laws coin_draws PopU_positive (fun _ => tt) plainV plain1 VNone VNone dimsV (st0 PopL) 0);
    try apply plain_copies; try apply plain_covered; try apply plain_quiet; try assumption; try reflexivity; try lia; try exact I;
    [cbn; tauto|intros k v H; cbn in H; destruct H as [[= <- <-]|[[= <- <-]|[]]]; exact I|apply Hp|].
  rewrite E. lra.
Qed.
(** one particle: the dice of C50 *)
Lemma dice_positive : positive_sums dice.
Proof.
  constructor; cbn [integral dice].
  - intros. ring.
  - intros k f g H. pose proof (H 0%Z). pose proof (H 1%Z). pose proof (H 2%Z). lra.
Qed.
Example C86_case_single : (expect dice (run (L := DiceL) dice_t VNone [] (st0 DiceL)) (log_weight_of dice) <= ln (5 / 16))%R.
Proof.
  destruct C50_hypotheses as (Hw & Hc & Hr).
  assert (E : density_sum dice (target (L := DiceL) dice_t VNone []) (fun _ _ => 1%R) = (5 / 16)%R).
  { rewrite <- (C50_normalising_constant DiceL DiceL_laws dice dice_laws (fun _ => tt) dice_t VNone [] (st0 DiceL)) by (try assumption; try reflexivity; constructor).
    apply C50_case. }
  rewrite <- E. apply (C86_single DiceL DiceL_laws dice dice_laws dice_positive (fun _ => tt)); try assumption; try reflexivity; [constructor|].
  rewrite E. lra.
Qed.
