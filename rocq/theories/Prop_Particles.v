(** Property C59: populations of particles, with Resample steps, are properly weighted. *)
From Coq Require Import Lra.
From Coquelicot Require Import Coquelicot.
From Verif Require Import SpecParticles Thm_Particles Thm_Resampled InstancesPop SpecTotal Thm_Total Prop_Total SpecGibbs Thm_Sweeps.
Open Scope nat_scope.

(** [t] is the single-particle program [t1] run on tensors of N particles in each of B batch
    entries.  For every batch entry, the expectation, over all random draws and all
    resampling offsets, of the particle average of exp(log_weight) times any function [h] of
    a particle's values and output equals the sum of [h] over the executions of the target
    of [t1], weighted by their unnormalised density.  [h] may not depend on the order
    in which the trace lists its addresses.  Hypotheses: [t1] is covered ([smc]), the
    argument is the same for all particles and the keyword arguments contain no tensor,
    sample_dims = 0 and batch_dim = 1, nothing is conditioned beforehand, and no execution
    raises. *)
Theorem C59_population_weighted : forall (LV LS : lib) (HL : lib_laws LV) (M : measures LS) (ML : measure_laws M)
    (W : array_view LV) N B (P : population LV LS) (PL : population_laws W N B P M) (sp : string -> Sp M)
    t t1 c c1 kws st b h,
  0 < N -> b < B ->
  copies W N B P t t1 -> smc M sp t1 c1 (kmap (part P 0 0) kws) ->
  all_tensors (particles W N B) c -> (forall s, s < N -> vmap (part P s b) c = c1) ->
  (forall k v, In (k, v) kws -> no_tensor v) ->
  kwarg "sample_dims" VNone kws = VInt 0 -> kwarg "batch_dim" VNone kws = VInt 1 ->
  wf_dict kws -> clean st -> clash ["self"; "c"; "fn"] kws = false ->
  (forall e s', ~ possible W N B (run t c kws st) (Err e, s')) ->
  (forall l l' o, Permutation l l' -> h l o = h l' o) ->
  expectation P (run t c kws st) (weighted_average W N P b h) = density_sum M (target t1 c1 (kmap (part P 0 0) kws)) h.
Proof. intros. eapply population_weighted_spec; try eassumption. split; assumption. Qed.
Print Assumptions C59_population_weighted.

(** In particular the expected average weight is the normalising constant of the target. *)
Theorem C59_normalising_constant : forall (LV LS : lib) (HL : lib_laws LV) (M : measures LS) (ML : measure_laws M)
    (W : array_view LV) N B (P : population LV LS) (PL : population_laws W N B P M) (sp : string -> Sp M)
    t t1 c c1 kws st b,
  0 < N -> b < B ->
  copies W N B P t t1 -> smc M sp t1 c1 (kmap (part P 0 0) kws) ->
  all_tensors (particles W N B) c -> (forall s, s < N -> vmap (part P s b) c = c1) ->
  (forall k v, In (k, v) kws -> no_tensor v) ->
  kwarg "sample_dims" VNone kws = VInt 0 -> kwarg "batch_dim" VNone kws = VInt 1 ->
  wf_dict kws -> clean st -> clash ["self"; "c"; "fn"] kws = false ->
  (forall e s', ~ possible W N B (run t c kws st) (Err e, s')) ->
  expectation P (run t c kws st) (weighted_average W N P b (fun _ _ => 1%R)) =
  density_sum M (target t1 c1 (kmap (part P 0 0) kws)) (fun _ _ => 1%R).
Proof. intros. eapply C59_population_weighted; eauto. Qed.
Print Assumptions C59_normalising_constant.

(** The same for well-formed programs: these raise nothing (C60), so no hypothesis about the
    executions is left. *)
Theorem C59_well_formed_weighted : forall (LV LS : lib) (HL : lib_laws LV) (M : measures LS) (ML : measure_laws M)
    (W : array_view LV) N B (P : population LV LS) (PL : population_laws W N B P M) (sp : string -> Sp M)
    t t1 c c1 kws st k k' b h,
  0 < N -> b < B -> eq_zero LV (tzero LV) = Ok true -> (forall rep b p, lj_ok LV rep b p = true) ->
  well_formed (particle_sorts W N B) kws t k k' ->
  copies W N B P t t1 -> smc M sp t1 c1 (kmap (part P 0 0) kws) ->
  all_tensors (particles W N B) c -> (forall s, s < N -> vmap (part P s b) c = c1) ->
  (forall k v, In (k, v) kws -> no_tensor v) ->
  kwarg "sample_dims" VNone kws = VInt 0 -> kwarg "batch_dim" VNone kws = VInt 1 ->
  plain_call kws -> at_rest st ->
  (forall l l' o, Permutation l l' -> h l o = h l' o) ->
  expectation P (run t c kws st) (weighted_average W N P b h) = density_sum M (target t1 c1 (kmap (part P 0 0) kws)) h.
Proof.
  intros. eapply C59_population_weighted; try eassumption; [apply H11|apply H12|apply plain_clash; [assumption|cbn; tauto]|].
  intros e s'. eapply C60_populations; eassumption.
Qed.
Print Assumptions C59_well_formed_weighted.

(** ** an instance: two particles, coins.
    x is proposed with coin 1/4, with an auxiliary w, for a target with coin 3/4 and resampled; then z is proposed
    with the coin x selects; the final target samples x and z and observes y = 1 with the
    coin z selects. *)
Definition coin1 (x : list R) : bool := if Req_EM_T (hd 0%R x) 1 then true else false.
Definition coinV (x : ten) (s b : nat) : bool := coin1 (slice s b x).
Definition xV (c : pyval ten) : ten := match c with VDict d => match dget "x" d with Some (VTensor x) => x | _ => col2 0 0 end | _ => col2 0 0 end.
Definition x1 (c : pyval (list R)) : list R := match c with VDict d => match dget "x" d with Some (VTensor x) => x | _ => [0%R] end | _ => [0%R] end.

Definition sampleV (d : bool) : pyval ten -> dict (pyval ten) -> model PopL := fun _ _ =>
  MVar (L := PopL) "x" (fun _ _ => d) None true (fun x => MRet (L := PopL) (VDict [("x", VTensor x)])).
Definition moveV : pyval ten -> dict (pyval ten) -> model PopL := fun c _ =>
  MVar (L := PopL) "z" (coinV (xV c)) None true (fun z => MRet (L := PopL) (VDict [("z", VTensor z)])).
Definition auxV : pyval ten -> dict (pyval ten) -> model PopL := fun c _ =>
  MVar (L := PopL) "w" (coinV (xV c)) None true (fun w => MRet (L := PopL) (VDict [("w", VTensor w)])).
Definition finalV : pyval ten -> dict (pyval ten) -> model PopL := fun _ _ =>
  MVar (L := PopL) "x" (fun _ _ => true) None true (fun x =>
  MVar (L := PopL) "z" (coinV x) None true (fun z =>
  MVar (L := PopL) "y" (coinV z) (Some (col2 1 1, None)) true (fun _ => MRet (L := PopL) (VDict [("z", VTensor z)])))).
Definition optsV : infopts PopL := mkOpts (L := PopL) (fun _ l => Ok l) None VNone false.
Definition firstV : inf PopL := IPropose (L := PopL) 5 (IProg (L := PopL) 6 sig_model (sampleV true)) 
  (ICompose (L := PopL) 9 (IProg (L := PopL) 8 sig_model auxV) (IProg (L := PopL) 7 sig_model (sampleV false)) optsV) optsV None false.
Definition againV : inf PopL := IResample (L := PopL) 4 firstV VNone None (systematic PopV false) false.
Definition movedV : inf PopL := ICompose (L := PopL) 2 (IProg (L := PopL) 3 sig_model moveV) againV optsV.
Definition smcV : inf PopL := IPropose (L := PopL) 0 (IProg (L := PopL) 1 sig_model finalV) movedV optsV None false.

Definition sample1 (d : bool) : pyval (list R) -> dict (pyval (list R)) -> model OneL := fun _ _ =>
  MVar (L := OneL) "x" d None true (fun x => MRet (L := OneL) (VDict [("x", VTensor x)])).
Definition move1 : pyval (list R) -> dict (pyval (list R)) -> model OneL := fun c _ =>
  MVar (L := OneL) "z" (coin1 (x1 c)) None true (fun z => MRet (L := OneL) (VDict [("z", VTensor z)])).
Definition aux1 : pyval (list R) -> dict (pyval (list R)) -> model OneL := fun c _ =>
  MVar (L := OneL) "w" (coin1 (x1 c)) None true (fun w => MRet (L := OneL) (VDict [("w", VTensor w)])).
Definition final1 : pyval (list R) -> dict (pyval (list R)) -> model OneL := fun _ _ =>
  MVar (L := OneL) "x" true None true (fun x =>
  MVar (L := OneL) "z" (coin1 x) None true (fun z =>
  MVar (L := OneL) "y" (coin1 z) (Some ([1%R], None)) true (fun _ => MRet (L := OneL) (VDict [("z", VTensor z)])))).
Definition opts1 : infopts OneL := mkOpts (L := OneL) (fun _ l => Ok l) None VNone false.
Definition no_resampler : resampler OneL := mkRS (L := OneL) sig_model (fun _ _ _ => Leaf (Err TypeError)).
Definition smc1 : inf OneL :=
  IPropose (L := OneL) 0 (IProg (L := OneL) 1 sig_model final1)
    (ICompose (L := OneL) 2 (IProg (L := OneL) 3 sig_model move1)
       (IResample (L := OneL) 4
          (IPropose (L := OneL) 5 (IProg (L := OneL) 6 sig_model (sample1 true)) 
             (ICompose (L := OneL) 9 (IProg (L := OneL) 8 sig_model aux1) (IProg (L := OneL) 7 sig_model (sample1 false)) opts1) opts1 None false)
          VNone None no_resampler false) opts1) opts1 None false.
Definition dimsV : dict (pyval ten) := [("sample_dims", VInt 0); ("batch_dim", VInt 1)].

Lemma coin_part s b x : coinV x s b = coin1 (part PopP s b x).
Proof. reflexivity. Qed.
Lemma x_part s b c : s < 2 -> b < 1 -> part PopP s b (xV c) = x1 (vmap (part PopP s b) c).
Proof.
  intros Hs Hb. assert (b = 0) as -> by lia.
  assert (E : part PopP s 0 (col2 0 0) = [0%R]) by (destruct s as [|[|s]]; [reflexivity|reflexivity|lia]).
  destruct c as [| | | | | |d|]; try exact E. cbn [vmap xV x1].
  induction d as [|[k v] d IH]; cbn [dget map fst snd]; [exact E|].
  destruct (String.eqb "x" k); [destruct v; try exact E; reflexivity|exact IH].
Qed.
Lemma col2_particles x y : particles PopV 2 1 (col2 x y).
Proof. split; reflexivity. Qed.
Lemma smc_copies : copies PopV 2 1 PopP smcV smc1.
Proof.
  unfold smcV, smc1. constructor; [|constructor| |]; try reflexivity; try exact I.
  - constructor. intros s b c kws Hs Hb Hc. unfold finalV, final1.
    apply (copies_sample PopV 2 1 PopP s b "x" (fun _ _ => true)). intros v Hv.
    apply (copies_sample PopV 2 1 PopP s b "z" (coinV v)). intros w Hw.
    replace [1%R] with (part PopP s b (col2 1 1)) by (destruct s as [|[|s]], b as [|b]; try lia; reflexivity).
    apply (copies_observe PopV 2 1 PopP s b "y" (coinV w)); [apply col2_particles|]. intros u Hu.
    apply (copies_ret PopV 2 1 PopP s b (VDict [("z", VTensor w)])). repeat split; apply Hw.
  - constructor. intros s b c kws Hs Hb Hc. unfold moveV, move1. rewrite <- x_part by assumption.
    apply (copies_sample PopV 2 1 PopP s b "z" (coinV (xV c))). intros v Hv.
    apply (copies_ret PopV 2 1 PopP s b (VDict [("z", VTensor v)])). repeat split; apply Hv.
  - unfold againV. constructor; try reflexivity; try exact I. unfold firstV. constructor; try reflexivity; try exact I.
    + constructor. intros s b c kws Hs Hb Hc. apply (copies_sample PopV 2 1 PopP s b "x" (fun _ _ => _)). intros v Hv.
      apply (copies_ret PopV 2 1 PopP s b (VDict [("x", VTensor v)])). repeat split; apply Hv.
    + constructor; try reflexivity; try exact I.
      * constructor. intros s b c kws Hs Hb Hc. unfold auxV, aux1. rewrite <- x_part by assumption.
        apply (copies_sample PopV 2 1 PopP s b "w" (coinV (xV c))). intros v Hv.
        apply (copies_ret PopV 2 1 PopP s b (VDict [("w", VTensor v)])). repeat split; apply Hv.
      * constructor. intros s b c kws Hs Hb Hc. apply (copies_sample PopV 2 1 PopP s b "x" (fun _ _ => _)). intros v Hv.
        apply (copies_ret PopV 2 1 PopP s b (VDict [("x", VTensor v)])). repeat split; apply Hv.
Qed.
Ltac inv_one := repeat match goal with
  | H : samples (MVar _ _ _ _ _) _ |- _ => inversion H; clear H; subst
  | H : samples (MRet _) _ |- _ => inversion H
  | H : observes (MVar _ _ _ _ _) _ |- _ => inversion H; clear H; subst
  | H : observes (MRet _) _ |- _ => inversion H
  end.
Lemma smc_covered : smc coins (fun _ => tt) smc1 VNone (kmap (part PopP 0 0) dimsV).
Proof.
  split; [reflexivity|]. split.
  - split.
    + cbn [smc]. split; [|split].
      * split; [reflexivity|]. split; [split; [repeat constructor|intros c1 _; unfold aux1; repeat constructor]|]. exists ["x"]. split; [repeat constructor; intros []|].
        split; [repeat constructor|]. split; [|split].
        -- cbn. unfold sample1, aux1. eapply (al_hit (L := OneL)); [apply Permutation_refl|]. intros v.
           apply (al_skip (L := OneL)); [cbn; intuition congruence|]. intros w. constructor.
        -- cbn. unfold sample1. eapply (al_hit (L := OneL)); [apply Permutation_refl|]. intros v. constructor.
        -- intros a _ H. cbn [target] in H. unfold sample1 in H. inv_one. left. reflexivity.
      * intros a H. cbn [target] in H. unfold sample1 in H. inv_one.
      * intros l o H. cbn [target] in H. unfold sample1 in H. inversion H; subst. match goal with H : execution (MRet _) _ _ |- _ => inversion H; subst end.
        eexists. split; [reflexivity|]. intros k v' [[= <- <-]|[]]. left. eexists. split; [left; reflexivity|reflexivity].
    + intros c1 _. unfold move1. repeat constructor.
  - exists ["x"; "z"]. split; [repeat constructor; cbn; intuition congruence|]. split; [|split; [|split]].
    + cbn [target_ok]. unfold final1. repeat constructor.
    + cbn. unfold sample1, move1. eapply (al_hit (L := OneL)); [apply Permutation_refl|]. intros v.
      eapply (al_hit (L := OneL)); [apply Permutation_refl|]. intros w. constructor.
    + cbn [target]. unfold final1. eapply (al_hit (L := OneL)); [apply Permutation_refl|]. intros v.
      eapply (al_hit (L := OneL)); [apply Permutation_refl|]. intros w. apply (al_skip (L := OneL)); [cbn; intuition congruence|]. intros u. constructor.
    + intros a _ H. cbn [target] in H. unfold final1 in H. inv_one; cbn; auto.
Qed.

Ltac steps := repeat first
  [ eapply (fine_sample (L := PopL)); [in_list|intros ? ?; cbn [app]]
  | eapply (fine_observe (L := PopL)); [in_list|apply col2_particles|cbn [app]] ].
Ltac output := split; [cbn; auto|]; intros ? [= <-]; eexists; split; [reflexivity|]; intros ? ? [[= <- <-]|[]]; right; eauto.
Lemma smc_well_formed : exists k, well_formed (particle_sorts PopV 2 1) dimsV smcV k k.
Proof.
  eexists. unfold smcV.
  apply (wf_propose _ _ _ _ _ _ _ (mkContract ["x"; "z"; "y"] ["x"; "z"] true (Some [])) (mkContract ["x"; "z"; "y"] ["x"; "z"] true (Some []))
    (mkContract ["x"; "z"] ["x"; "z"] true (Some [])) (mkContract ["x"; "z"] ["x"; "z"] true (Some []))).
  - apply wf_program; [reflexivity|]. intros c kws _ _. unfold finalV. steps. apply (fine_ret (L := PopL)).
    split; [in_list|]. split; [in_list|]. split; [intros _; exists "y"; in_list|]. output.
  - unfold movedV. apply (wf_compose _ _ _ _ _ _ (mkContract ["x"] ["x"] true (Some [])) (mkContract ["x"] ["x"] true (Some []))
      (mkContract ["z"] ["z"] false (Some [])) (mkContract ["z"] ["z"] false (Some []))).
    + unfold againV. apply (wf_resample _ _ _ _ _ _ _ _ _ (mkContract ["x"] ["x"] true (Some [])) []); try reflexivity; [|intros a []|].
      * unfold firstV. apply (wf_propose _ _ _ _ _ _ _ (mkContract ["x"] ["x"] false (Some [])) (mkContract ["x"] ["x"] false (Some []))
          (mkContract ["x"; "w"] ["x"; "w"] false (Some [])) (mkContract ["x"; "w"] ["x"; "w"] false (Some []))).
        -- apply wf_program; [reflexivity|]. intros c kws _ _. unfold sampleV. steps. apply (fine_ret (L := PopL)).
           split; [in_list|]. split; [in_list|]. split; [discriminate|]. output.
        -- apply (wf_compose _ _ _ _ _ _ (mkContract ["x"] ["x"] false (Some [])) (mkContract ["x"] ["x"] false (Some []))
             (mkContract ["w"] ["w"] false (Some [])) (mkContract ["w"] ["w"] false (Some []))).
           ++ apply wf_program; [reflexivity|]. intros c kws _ _. unfold sampleV. steps. apply (fine_ret (L := PopL)).
              split; [in_list|]. split; [in_list|]. split; [discriminate|]. output.
           ++ apply wf_program; [reflexivity|]. intros c kws _ _. unfold auxV. steps. apply (fine_ret (L := PopL)).
              split; [in_list|]. split; [in_list|]. split; [discriminate|]. output.
           ++ intros a Ha Hb. cbn in Ha, Hb. intuition congruence.
           ++ intros r l. eexists. reflexivity.
        -- reflexivity.
        -- intros [].
        -- intros r l. eexists. reflexivity.
        -- right. right. exists "x". in_list.
      * cbn [dimsV kwarg dget]. eapply C60_systematic; [apply PopP_laws|lia].
    + apply wf_program; [reflexivity|]. intros c kws _ _. unfold moveV. steps. apply (fine_ret (L := PopL)).
      split; [in_list|]. split; [in_list|]. split; [discriminate|]. output.
    + intros a Ha Hb. cbn in Ha, Hb. intuition congruence.
    + intros r l. eexists. reflexivity.
  - reflexivity.
  - intros [].
  - intros r l. eexists. reflexivity.
  - left. reflexivity.
Qed.
Example C59_hypotheses :
  copies PopV 2 1 PopP smcV smc1 /\ smc coins (fun _ => tt) smc1 VNone (kmap (part PopP 0 0) dimsV) /\
  (exists k, well_formed (particle_sorts PopV 2 1) dimsV smcV k k) /\ plain_call dimsV /\ at_rest (st0 PopL) /\
  (forall e s', ~ possible PopV 2 1 (run smcV VNone dimsV (st0 PopL)) (Err e, s')).
Proof.
  assert (A : plain_call dimsV).
  { split; [repeat constructor; cbn; intuition congruence|]. intros k Hk Hd. cbn in Hk, Hd. intuition congruence. }
  assert (R : at_rest (st0 PopL)) by (split; [intros i; reflexivity|intros d tr tr2; eexists; reflexivity]).
  split; [apply smc_copies|]. split; [apply smc_covered|]. split; [apply smc_well_formed|]. split; [exact A|]. split; [exact R|].
  destruct smc_well_formed as [k W]. intros e s'.
  eapply (C60_populations PopL OneL PopL_laws coins PopV 2 1 PopP PopP_laws); try eassumption; try reflexivity; try exact I; [lia|].
  cbn. destruct (Req_EM_T 0 0); congruence.
Qed.
(** the expected average weight of the two particles, with resampling: 9/16 *)
Example C59_case :
  expectation PopP (run smcV VNone dimsV (st0 PopL)) (weighted_average PopV 2 PopP 0 (fun _ _ => 1%R)) = (9 / 16)%R.
Proof.
  destruct C59_hypotheses as (Hc & Hs & _ & Hp & [Hr _] & Hn).
  rewrite (C59_normalising_constant PopL OneL PopL_laws coins coins_laws PopV 2 1 PopP PopP_laws (fun _ => tt) smcV smc1 VNone VNone dimsV (st0 PopL) 0);
    try assumption; try reflexivity; try lia; try exact I; [|intros k v H; cbn in H; destruct H as [[= <- <-]|[[= <- <-]|[]]]; exact I|apply Hp].
  unfold smc1. cbn [target]. unfold final1. cbn [density_sum]. cbn [integral coins space]. rewrite !coin_mass.
  assert (E0 : coin1 [0%R] = false) by (unfold coin1; cbn; destruct (Req_EM_T 0 1); [lra|reflexivity]).
  assert (E1 : coin1 [1%R] = true) by (unfold coin1; cbn; destruct (Req_EM_T 1 1); [reflexivity|congruence]).
  rewrite E0, E1, !heads1, !heads0. lra.
Qed.
