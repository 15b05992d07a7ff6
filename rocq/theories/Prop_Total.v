(** Property C60: well-formed inference programs run to the end. *)
From Verif Require Import SpecTotal Thm_Total Prop_Proper Instances.
From Verif Require Import SpecProper Thm_Proper SpecGibbs Thm_Sweeps.
Open Scope nat_scope.

(** A program that is well formed for the call's keyword arguments never raises: every
    execution whose draws are drawable returns a result, and the result meets the program's
    contract.  Hypotheses: tensor operations keep the sorts ([sorts_laws]), the argument
    holds values, no keyword argument is also passed by position, nothing is conditioned
    and the resample hook of the global store returns. *)
Theorem C60_never_raises : forall (L : lib) (S : sorts L) t k k' c kws s r s',
  sorts_laws S (kwarg "sample_dims" VNone kws) (kwarg "batch_dim" VNone kws) ->
  well_formed S kws t k k' -> all_tensors (value S) c -> plain_call kws -> at_rest s ->
  reaches S (run t c kws s) (r, s') -> exists o, r = Ok o /\ meets S k o.
Proof. intros. eapply total_spec; eassumption. Qed.
Print Assumptions C60_never_raises.

Lemma all_tensors_any {A} (v : pyval A) : all_tensors (fun _ => True) v.
Proof.
  induction v as [|b|z|s|t|l IH|d IH|n] using pyval_ind'; cbn [all_tensors]; trivial.
  - induction IH; cbn; auto.
  - induction IH; cbn; auto.
Qed.
(** For unrestricted draws: in every library whose sums of log-densities are tensors, whose
    arithmetic gives a tensor when an operand is one, and whose log_joint accepts every node,
    no execution raises. *)
Theorem C60_any_library : forall (L : lib) t k k' c kws s e s',
  lib_laws L -> tensor_laws L -> (forall x, is_tensor L (detach L x) = is_tensor L x) ->
  eq_zero L (tzero L) = Ok true -> (forall rep b p, lj_ok L rep b p = true) ->
  well_formed (any_sorts L) kws t k k' -> plain_call kws -> at_rest s ->
  ~ raises (run t c kws) s e s'.
Proof.
  intros L t k k' c kws s e s' HL HT Hd He Hl Hw Hp Hs H. apply any_reaches in H.
  destruct (C60_never_raises L (any_sorts L) t k k' c kws s (Err e) s') as (o & E & _); try assumption; [apply any_laws; assumption| |discriminate].
  apply all_tensors_any.
Qed.
Print Assumptions C60_any_library.

(** For populations of particles: the same with Systematic as the resampler. *)
Theorem C60_populations : forall (LV LS : lib) (HL : lib_laws LV) (M : measures LS) (W : array_view LV) N B
    (P : population LV LS) (PL : population_laws W N B P M) t k k' c kws s e s',
  0 < N -> eq_zero LV (tzero LV) = Ok true -> (forall rep b p, lj_ok LV rep b p = true) ->
  kwarg "sample_dims" VNone kws = VInt 0 -> kwarg "batch_dim" VNone kws = VInt 1 ->
  well_formed (particle_sorts W N B) kws t k k' -> all_tensors (particles W N B) c -> plain_call kws -> at_rest s ->
  ~ possible W N B (run t c kws s) (Err e, s').
Proof.
  intros LV LS HL M W N B P PL t k k' c kws s e s' HN He Hl Hsd Hbd Hw Hc Hp Hs H. apply particle_reaches in H.
  destruct (C60_never_raises LV (particle_sorts W N B) t k k' c kws s (Err e) s') as (o & E & _); try assumption; [|discriminate].
  rewrite Hsd, Hbd. eapply particle_laws; eassumption.
Qed.
Print Assumptions C60_populations.
Theorem C60_systematic : forall (LV LS : lib) (M : measures LS) (W : array_view LV) N B
    (P : population LV LS) (PL : population_laws W N B P M) rep,
  0 < N -> total_resampler (particle_sorts W N B) (systematic W false) (VInt 0) (VInt 1) rep.
Proof. intros. eapply systematic_total; eassumption. Qed.
Print Assumptions C60_systematic.

(** ** the program of C50 is well formed: its no-raise hypothesis follows *)
Lemma dice_tensors : tensor_laws DiceL.
Proof. constructor; reflexivity. Qed.
Ltac in_list := cbn; intuition congruence.
Ltac fine_steps := repeat first
  [ eapply (fine_sample (L := DiceL)); [in_list|intros ? ?; cbn [app]]
  | eapply (fine_observe (L := DiceL)); [in_list|exact I|cbn [app]] ].
Example C60_hypotheses : exists k, well_formed (any_sorts DiceL) [] dice_t k k /\ has_weight k = true /\ uses k = ["x"; "y"] /\
  forall c e s', ~ raises (run dice_t c []) (st0 DiceL) e s'.
Proof.
  assert (W : well_formed (any_sorts DiceL) [] dice_t (mkContract ["x"; "y"] ["x"] true (Some [])) (mkContract ["x"; "y"] ["x"] true (Some []))).
  { unfold dice_t.
    apply (wf_propose _ _ _ _ _ _ _ (mkContract ["x"; "y"; "z"] ["x"; "z"] true (Some [])) (mkContract ["x"; "y"] ["x"] true (Some []))
             (mkContract ["x"; "z"; "w"] ["x"; "z"; "w"] false (Some [])) (mkContract ["x"; "z"; "w"] ["x"; "z"; "w"] false (Some []))).
    - apply (wf_extend _ _ _ _ _ _ _ _ (mkContract ["x"; "y"] ["x"] true (Some [])) (mkContract ["x"; "y"] ["x"] true (Some [])) (mkContract ["z"] ["z"] false (Some []))).
      + apply wf_program; [reflexivity|]. intros c kws _ _. unfold dice_p. fine_steps. apply (fine_ret (L := DiceL)).
        split; [in_list|]. split; [in_list|]. split; [intros _; exists "y"; in_list|]. split; [cbn; auto|]. intros ks [= <-]. eexists. split; [reflexivity|].
        intros a x [[= <- <-]|[]]. right. eauto.
      + apply wf_program; [reflexivity|]. intros c kws _ _. unfold dice_f. fine_steps. apply (fine_ret (L := DiceL)).
        split; [in_list|]. split; [in_list|]. split; [discriminate|]. split; [cbn; auto|]. intros ks [= <-]. eexists. split; [reflexivity|].
        intros a x [[= <- <-]|[]]. right. eauto.
      + intros c kws _ _. unfold dice_f. fine_steps. apply (fine_ret (L := DiceL)). in_list.
      + intros a [<-|[]]. in_list.
      + intros r l. eexists. reflexivity.
      + discriminate.
      + discriminate.
      + intros [].
    - apply (wf_compose _ _ _ _ _ _ (mkContract ["x"] ["x"] false (Some [])) (mkContract ["x"] ["x"] false (Some []))
               (mkContract ["z"; "w"] ["z"; "w"] false (Some [])) (mkContract ["z"; "w"] ["z"; "w"] false (Some []))).
      + apply wf_program; [reflexivity|]. intros c kws _ _. unfold dice_q. fine_steps. apply (fine_ret (L := DiceL)).
        split; [in_list|]. split; [in_list|]. split; [discriminate|]. split; [cbn; auto|]. intros ks [= <-]. eexists. split; [reflexivity|].
        intros a x [[= <- <-]|[]]. right. eauto.
      + apply wf_program; [reflexivity|]. intros c kws _ _. unfold dice_k. fine_steps. apply (fine_ret (L := DiceL)).
        split; [in_list|]. split; [in_list|]. split; [discriminate|]. split; [cbn; auto|]. intros ks [= <-]. eexists. split; [reflexivity|].
        intros a x [[= <- <-]|[]]. right. eauto.
      + intros a Ha Hb. cbn in Ha, Hb. intuition congruence.
      + intros r l. eexists. reflexivity.
    - reflexivity.
    - intros [].
    - intros r l. eexists. reflexivity.
    - left. reflexivity. }
  eexists. split; [exact W|]. split; [reflexivity|]. split; [reflexivity|]. intros c e s'.
  eapply C60_any_library; try reflexivity; [apply DiceL_laws|apply dice_tensors|exact W|split; [constructor|intros k _ []]|].
  split; [intros i; reflexivity|]. intros d tr tr2. eexists. reflexivity.
Qed.

(** Proper weighting (C50) of a well-formed program, with no hypothesis about its executions. *)
Theorem C50_well_formed_weighted : forall (L : lib) (HL : lib_laws L) (M : measures L) (ML : measure_laws M) (sp : string -> Sp M)
    t c kws s k k' h,
  tensor_laws L -> (forall x, is_tensor L (detach L x) = is_tensor L x) ->
  eq_zero L (tzero L) = Ok true -> (forall rep b p, lj_ok L rep b p = true) ->
  well_formed (any_sorts L) kws t k k' -> weightable M sp t c kws -> plain_call kws -> at_rest s ->
  (forall l l' o, Permutation l l' -> h l o = h l' o) ->
  expect M (run t c kws s) (weighted M h) = density_sum M (target t c kws) h.
Proof.
  intros L HL M ML sp t c kws s k k' h HT Hd He Hl Hw Ht Hp Hs Hh.
  eapply C50_properly_weighted; try eassumption; [apply Hp|apply Hs|apply plain_clash; [assumption|cbn; tauto]|].
  intros e s'. eapply C60_any_library; eassumption.
Qed.
Print Assumptions C50_well_formed_weighted.
Example C50_well_formed_hypotheses : exists k, well_formed (any_sorts DiceL) [] dice_t k k /\
  weightable dice (fun _ => tt) dice_t VNone [] /\ at_rest (st0 DiceL) /\
  expect dice (run (L := DiceL) dice_t VNone [] (st0 DiceL)) (weighted dice (fun _ _ => 1%R)) = density_sum dice (target dice_t VNone []) (fun _ _ => 1%R).
Proof.
  destruct C60_hypotheses as (k & W & _). destruct C50_hypotheses as (H & _ & _). exists k. split; [exact W|]. split; [exact H|].
  assert (R : at_rest (st0 DiceL)) by (split; [intros i; reflexivity|intros d tr tr2; eexists; reflexivity]).
  split; [exact R|]. eapply (C50_well_formed_weighted DiceL DiceL_laws dice dice_laws (fun _ => tt)); try eassumption; try reflexivity.
  - apply dice_tensors.
  - split; [constructor|intros k0 _ []].
Qed.
