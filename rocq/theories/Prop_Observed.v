(** Property C62: resampling a program with observations. *)
From Coq Require Import Lra.
From Coquelicot Require Import Coquelicot.
From Verif Require Import SpecParticles SpecResample SpecTotal SpecGibbs InstancesPop Prop_Total Prop_Particles Prop_Combinators Prop_Resample Gibbs TraceFacts.
Open Scope nat_scope.

Lemma resampled_dget {L : lib} (W : array_view L) anc (tr tr' : trace L) a r : resampled_trace W anc tr tr' -> dget a tr = Some r ->
  exists r', dget a tr' = Some r' /\ resampled_rv W anc r r'.
Proof.
  induction 1 as [|[c x] [c' x'] tr tr' [H1 H2] _ IH]; cbn [dget]; [discriminate|]. cbn in H1, H2. subst c'.
  destruct (String.eqb a c); [intros [= <-]; eauto|exact IH].
Qed.

(** What Propose charges to a proposal that was resampled and then moved by a kernel: let [o0] be
    the result before resampling.  Every variable that is not observed is replaced, value
    and log-probability, by that of a common ancestor [anc].  An observed variable is charged with
    the log-probability it had before resampling: that of another particle. *)
Theorem C62_observations_stay : forall (L : lib) (HL : lib_laws L) (W : array_view L) nrm
    oid p oidc k oidr q0 ix l0 dbg oc o tf nr c kws s r s',
  wf_dict kws -> wf_st s ->
  returns (run (IPropose oid p (ICompose oidc k (IResample oidr q0 ix l0 (systematic W nrm) dbg) oc) o tf nr) c kws) s r s' ->
  exists kws0 o0 s0 px anc,
    returns (run q0 c kws0) s o0 s0 /\ out_px r = Some px /\
    forall a v, dget a (out_trace o0) = Some v ->
      (is_observed v = true -> dget a (px_proposal_trace px) = Some v /\ In a (px_nodes px)) /\
      (is_observed v = false -> rv_resamplable v = true -> exists v', dget a (px_proposal_trace px) = Some v' /\
         gathered (to_arr W (rv_value v)) (to_arr W (rv_value v')) anc /\
         gathered (to_arr W (rv_logp v)) (to_arr W (rv_logp v')) anc).
Proof.
  intros L HL W nrm oid p oidc k oidr q0 ix l0 dbg oc o tf nr c kws s r s' Hwf Hst H.
  destruct (C12_objective_data L HL _ _ _ _ _ _ _ _ _ _ _ Hwf Hst H) as (qo & s1 & po & s2 & px & Hq & _ & Epx & _ & _ & Epr & _ & Hn).
  destruct (C05_compose_law L _ _ _ _ _ _ _ _ _ (wf_sub_kwargs _ _ Hwf) Hst Hq) as (o1 & s3 & o2 & Hr & _ & [Hd Hu] & _).
  apply outcome_path in Hr. destruct Hr as [ds Hr].
  destruct (C26_whole_particles L W _ _ _ _ _ _ _ _ _ _ _ _ (wf_sub_kwargs _ _ (wf_sub_kwargs _ _ Hwf)) Hst Hr) as (ds1 & v & o0 & s0 & c1 & c2 & _ & H0 & Ht & _).
  eexists. exists o0, s0, px. eexists. split; [exact (path_outcome _ _ _ _ H0)|]. split; [exact Epx|]. intros a x Ha.
  destruct (resampled_dget W _ _ _ _ _ Ht Ha) as (x' & Ha' & Hx).
  assert (Hp : dget a (px_proposal_trace px) = Some x') by (rewrite Epr, Hu, Ha'; reflexivity).
  unfold resampled_rv, moves in Hx. split.
  - intros Ho. rewrite Ho, Bool.andb_false_r in Hx. subst x'. split; [exact Hp|]. apply Hn. exists x. rewrite Epr in Hp. split; [exact Hp|]. left.
    unfold is_observed in Ho. destruct (rv_prov x); (discriminate || reflexivity).
  - intros Ho Hr'. rewrite Ho, Hr' in Hx. cbn in Hx. exists x'. split; [exact Hp|]. split; apply Hx.
Qed.
Print Assumptions C62_observations_stay.

(** ... in particular in every step of a Gibbs sweep that follows a Resample: the likelihood of the
    frames under the old sample. *)
Theorem C62_gibbs_stays : forall (L : lib) (HL : lib_laws L) (W : array_view L) (N : nets L) wmean node_sum T_ sweep t
    oidr q0 c kws s r s',
  wf_dict kws -> wf_st s ->
  returns (run (gibbs_step L N wmean node_sum T_ sweep t (resampled L (systematic W true) oidr q0)) c kws) s r s' ->
  exists kws0 o0 s0 px,
    returns (run q0 c kws0) s o0 s0 /\ out_px r = Some px /\
    forall v, dget "recon" (out_trace o0) = Some v -> is_observed v = true ->
      dget "recon" (px_proposal_trace px) = Some v /\ In "recon" (px_nodes px).
Proof.
  intros L HL W N wmean node_sum T_ sweep t oidr q0 c kws s r s' Hwf Hst H. unfold gibbs_step, resampled in H.
  destruct (C62_observations_stay L HL W true _ _ _ _ _ _ _ _ _ _ _ _ _ _ _ _ _ _ Hwf Hst H) as (kws0 & o0 & s0 & px & anc & H0 & Epx & Hn).
  exists kws0, o0, s0, px. split; [exact H0|]. split; [exact Epx|]. intros v Hv Ho. apply (Hn _ _ Hv), Ho.
Qed.
Print Assumptions C62_gibbs_stays.

(** ** An instance: two particles.  x is a coin with probability 3/4, y = 1 is observed with
    the coin that x selects. *)
Definition obsV : pyval ten -> dict (pyval ten) -> model PopL := fun _ _ =>
  MVar (L := PopL) "x" (fun _ _ => true) None true (fun x =>
  MVar (L := PopL) "y" (coinV x) (Some (col2 1 1, None)) true (fun _ => MRet (L := PopL) (VDict [("x", VTensor x)]))).
Definition obs1 : pyval (list R) -> dict (pyval (list R)) -> model OneL := fun _ _ =>
  MVar (L := OneL) "x" true None true (fun x =>
  MVar (L := OneL) "y" (coin1 x) (Some ([1%R], None)) true (fun _ => MRet (L := OneL) (VDict [("x", VTensor x)]))).
Definition offset_at (u : R) : ten := Ten (mkArr [1] (fun _ => Fin u)).
(** a program that resamples it, moves the particles and proposes the result for a program with the
    same observation: some run of it returns, so the hypotheses of C62_observations_stay are met *)
Definition movedO : inf PopL := ICompose (L := PopL) 2 (IProg (L := PopL) 3 sig_model moveV)
  (IResample (L := PopL) 4 (IProg (L := PopL) 5 sig_model obsV) VNone None (systematic PopV false) false) optsV.
Definition smcO : inf PopL := IPropose (L := PopL) 0 (IProg (L := PopL) 1 sig_model finalV) movedO optsV None false.
Lemma some_execution {A} (t : stree PopL A) : exists a, possible PopV 2 1 t a.
Proof.
  induction t as [a|[d rep sh|] k IH]; [exists a; constructor| |].
  - destruct (IH (col2 0 0)) as [a H]. exists a. econstructor; [|exact H]. apply col2_particles.
  - destruct (IH (offset_at 0)) as [a H]. exists a. econstructor; [|exact H]. intros b _. cbn. lra.
Qed.
Lemma possible_outcome {A} (t : stree PopL A) a : possible PopV 2 1 t a -> outcome t a.
Proof. induction 1; econstructor; eassumption. Qed.
Lemma smcO_well_formed : exists k, well_formed (particle_sorts PopV 2 1) dimsV smcO k k.
Proof.
  eexists. unfold smcO.
  apply (wf_propose _ _ _ _ _ _ _ (mkContract ["x"; "z"; "y"] ["x"; "z"] true (Some [])) (mkContract ["x"; "z"; "y"] ["x"; "z"] true (Some []))
    (mkContract ["x"; "y"; "z"] ["x"; "z"] true (Some [])) (mkContract ["x"; "y"; "z"] ["x"; "z"] true (Some []))).
  - apply wf_program; [reflexivity|]. intros c kws _ _. unfold finalV. steps. apply (fine_ret (L := PopL)).
    split; [in_list|]. split; [in_list|]. split; [intros _; exists "y"; in_list|]. output.
  - unfold movedO. apply (wf_compose _ _ _ _ _ _ (mkContract ["x"; "y"] ["x"] true (Some [])) (mkContract ["x"; "y"] ["x"] true (Some []))
      (mkContract ["z"] ["z"] false (Some [])) (mkContract ["z"] ["z"] false (Some []))).
    + apply (wf_resample _ _ _ _ _ _ _ _ _ (mkContract ["x"; "y"] ["x"] true (Some [])) []); try reflexivity; [|intros a []|].
      * apply wf_program; [reflexivity|]. intros c kws _ _. unfold obsV. steps. apply (fine_ret (L := PopL)).
        split; [in_list|]. split; [in_list|]. split; [intros _; exists "y"; in_list|]. output.
      * cbn [dimsV kwarg dget]. eapply C60_systematic; [apply PopP_laws|lia].
    + apply wf_program; [reflexivity|]. intros c kws _ _. unfold moveV. steps. apply (fine_ret (L := PopL)).
      split; [in_list|]. split; [in_list|]. split; [discriminate|]. output.
    + intros a Ha Hb. cbn in Ha, Hb. intuition congruence.
    + intros r l. eexists. reflexivity.
  - reflexivity.
  - intros [].
  - intros r l. eexists. reflexivity.
  - left. reflexivity.
Qed.
Example C62_hypotheses : wf_dict dimsV /\ wf_st (st0 PopL) /\ exists o s', returns (run smcO VNone dimsV) (st0 PopL) o s'.
Proof.
  assert (A : plain_call dimsV).
  { split; [repeat constructor; cbn; intuition congruence|]. intros k Hk Hd. cbn in Hk, Hd. intuition congruence. }
  split; [apply A|]. split; [intros i t H; discriminate|].
  destruct (some_execution (run smcO VNone dimsV (st0 PopL))) as [[[o|e] s'] H]; [exists o, s'; apply possible_outcome, H|].
  destruct smcO_well_formed as [k Wf]. exfalso. revert H.
  eapply (C60_populations PopL OneL PopL_laws coins PopV 2 1 PopP PopP_laws); try eassumption; try reflexivity; try exact I; [lia| |].
  - cbn. destruct (Req_EM_T 0 0); congruence.
  - split; [intros i; reflexivity|intros d tr tr2; eexists; reflexivity].
Qed.

(** the program, resampled, proposed for itself *)
Definition selfV : inf PopL := IPropose (L := PopL) 0 (IProg (L := PopL) 1 sig_model obsV)
  (IResample (L := PopL) 2 (IProg (L := PopL) 3 sig_model obsV) VNone None (systematic PopV false) false) optsV None false.
Definition self1 : inf OneL := IPropose (L := OneL) 0 (IProg (L := OneL) 1 sig_model obs1)
  (IResample (L := OneL) 2 (IProg (L := OneL) 3 sig_model obs1) VNone None no_resampler false) opts1 None false.

(** the run, with the draw [x] and the offset [u] *)
Definition first_draw {A} (t : stree PopL A) (x : ten) : stree PopL A := match t with Draw _ k => k x | _ => t end.
Definition selfavg (x : ten) (u : R) : R :=
  match first_draw (first_draw (run selfV VNone dimsV (st0 PopL)) x) (offset_at u) with
  | Leaf a => weighted_average PopV 2 PopP 0 (fun _ _ => 1%R) a | _ => 0%R end.
Definition one_offset {A} (t : stree PopL A) : Prop :=
  match t with Draw DrawRand k => forall u, (0 < u)%R -> (u < 1)%R -> match k (offset_at u) with Leaf _ => True | _ => False end | _ => False end.
Lemma offset_mean {A} (t : stree PopL A) f : one_offset t ->
  expectation PopP t f = RInt (fun u => match first_draw t (offset_at u) with Leaf a => f a | _ => 0%R end) 0 1.
Proof.
  destruct t as [a|[d rep sh|] k]; intros H; try contradiction. cbn [expectation first_draw]. apply RInt_ext. rewrite Rmin_left, Rmax_right by lra. intros u [Hu0 Hu1].
  specialize (H u Hu0 Hu1). change (Ten (mkArr [1] (fun _ => Fin u))) with (offset_at u). destruct (k (offset_at u)); [reflexivity|contradiction].
Qed.

Ltac ev := cbv -[exp ln Rplus Rmult Ropp Rinv IZR Rminus Rdiv Rle_dec Rlt_dec Req_EM_T total_order_T heads Rle_lt_dec INR ancestors_of].
Lemma anc2 w0 w1 a0 a1 u e0 e1 : e0 = ln w0 -> e1 = ln w1 -> (0 < w0)%R -> (0 < w1)%R -> (0 < u < 1)%R ->
  a0 = (if Rlt_dec (w0 / (w0 + w1)) (u / 2) then 1 else 0) -> a1 = (if Rlt_dec (w0 / (w0 + w1)) ((1 + u) / 2) then 1 else 0) ->
  ancestors_of [Fin e0; Fin e1] u = [a0; a1].
Proof.
  intros -> -> H0 H1 Hu -> ->. unfold ancestors_of, usteps, softmax, cumsum. cbn [map length seq cumsum_from rsum fold_right eexp].
  rewrite !exp_ln by assumption.
  assert (E : rmax [(0 + w0 / (w0 + (w1 + 0)))%R; (0 + w0 / (w0 + (w1 + 0)) + w1 / (w0 + (w1 + 0)))%R] = 1%R).
  { unfold rmax. cbn [fold_left]. replace (0 + w0 / (w0 + (w1 + 0)) + w1 / (w0 + (w1 + 0)))%R with 1%R by (field; lra).
    apply Rmax_right. apply Rmult_le_reg_r with (w0 + (w1 + 0))%R; [lra|]. unfold Rdiv. rewrite Rplus_0_l, Rmult_assoc, Rinv_l by lra. lra. }
  rewrite E. cbn [lower_bound INR].
  replace ((0 + w0 / (w0 + (w1 + 0))) / 1)%R with (w0 / (w0 + w1))%R by (field; lra).
  replace ((0 + w0 / (w0 + (w1 + 0)) + w1 / (w0 + (w1 + 0))) / 1)%R with 1%R by (field; lra).
  replace ((0 + u) / (1 + 1))%R with (u / 2)%R by field. replace ((1 + u) / (1 + 1))%R with ((1 + u) / 2)%R by field.
  destruct (Rlt_dec 1 (u / 2)) as [H|_]; [lra|]. destruct (Rlt_dec 1 ((1 + u) / 2)) as [H|_]; [lra|]. reflexivity.
Qed.
Lemma self_mean w0 w1 : (0 < w0)%R -> (0 < w1)%R ->
  (exp (0 + (ln w0 + 0) + - ln (1 + 1)) + (exp (0 + (ln w1 + 0) + - ln (1 + 1)) + 0) = (w0 + w1) / 2)%R.
Proof.
  intros H0 H1. rewrite !Rplus_0_l, !Rplus_0_r, !exp_plus, !exp_Ropp, !exp_ln by lra. field.
Qed.
Lemma self_weight z p l' l : (0 < z)%R -> (0 < l')%R -> (0 < l)%R ->
  (exp (ln z + (0 + (ln p + 0) + (ln l' + 0) - (0 + (ln p + 0) + (ln l + 0)))) = z * l' / l)%R.
Proof.
  intros Hz H1 H2. replace (ln z + (0 + (ln p + 0) + (ln l' + 0) - (0 + (ln p + 0) + (ln l + 0))))%R with (ln z + (ln l' + - ln l))%R by ring.
  rewrite !exp_plus, exp_Ropp, !exp_ln by assumption. field. lra.
Qed.
Ltac coins_of := repeat match goal with |- context [Req_EM_T ?a ?b] => destruct (Req_EM_T a b); [try (exfalso; lra)|try (exfalso; lra)] end;
  rewrite ?heads1; cbn [INR].
Lemma ancestors2 l0 l1 u : (0 < u < 1)%R -> exists l, ancestors_of [Fin l0; Fin l1] u = l /\ In l [[0; 0]; [0; 1]; [1; 1]].
Proof.
  intros Hu. eexists. split; [reflexivity|]. destruct (C28_ancestors_valid [Fin l0; Fin l1] u) as (Hn & Hi & Ho); [exists l0; cbn; auto|lra|].
  specialize (Ho 0 1). cbn [length] in *. destruct (ancestors_of [Fin l0; Fin l1] u) as [|a [|b [|c l]]]; try discriminate.
  assert (a < 2) by (apply Hi; cbn; auto). assert (b < 2) by (apply Hi; cbn; auto). cbn [nth] in Ho.
  destruct a as [|[|a]], b as [|[|b]]; try lia; cbn; auto.
Qed.
Notation coin_of a := (if Req_EM_T a 1 then true else false).
Notation logs_of a b := [Fin (0 + (ln (heads (coin_of a) 1) + 0)); Fin (0 + (ln (heads (coin_of b) 1) + 0))].
Lemma self_gen a b l u la lb : heads (coin_of a) 1 = la -> heads (coin_of b) 1 = lb -> (0 < la)%R -> (0 < lb)%R ->
  ancestors_of (logs_of a b) u = l -> In l [[0; 0]; [0; 1]; [1; 1]] ->
  match first_draw (first_draw (run selfV VNone dimsV (st0 PopL)) (col2 a b)) (offset_at u) with
  | Leaf r => weighted_average PopV 2 PopP 0 (fun _ _ => 1%R) r =
      ((la + lb) / 2 * (nth (nth 0 l 0%nat) [la; lb] 0 / la + nth (nth 1 l 0%nat) [la; lb] 0 / lb) / 2)%R
  | _ => False end.
Proof.
  intros Ea Eb Ha Hb H Hl. cbn [In] in Hl. destruct Hl as [<-|[<-|[<-|[]]]]; cbn [nth]; ev;
  (match goal with |- context [ancestors_of ?c ?v] => let E := fresh in assert (E := H : ancestors_of c v = _); rewrite E; clear H E end); ev;
  cbn [INR]; destruct (Req_EM_T a 1), (Req_EM_T b 1); subst la lb; rewrite !self_mean by lra;
  (match goal with |- context [Rlt_dec 0 ?z] => destruct (Rlt_dec 0 z); [|lra] end); rewrite !self_weight by lra; field; lra.
Qed.
Lemma coin_of_pos a : (0 < heads (coin_of a) 1)%R.
Proof. rewrite heads1. destruct (Req_EM_T a 1); lra. Qed.
Lemma self_is a b l u la lb : heads (coin_of a) 1 = la -> heads (coin_of b) 1 = lb ->
  ancestors_of (logs_of a b) u = l -> In l [[0; 0]; [0; 1]; [1; 1]] ->
  selfavg (col2 a b) u = ((la + lb) / 2 * (nth (nth 0 l 0%nat) [la; lb] 0 / la + nth (nth 1 l 0%nat) [la; lb] 0 / lb) / 2)%R.
Proof.
  intros <- <- H Hl. assert (G := self_gen a b l u _ _ eq_refl eq_refl (coin_of_pos a) (coin_of_pos b) H Hl). unfold selfavg.
  destruct (first_draw (first_draw (run selfV VNone dimsV (st0 PopL)) (col2 a b)) (offset_at u)); [exact G|contradiction].
Qed.
Ltac ancestors_are l la lb :=
  rewrite (self_is _ _ l _ la lb); try (coins_of; lra); [cbn [nth]; lra| |cbn; auto];
  apply (anc2 la lb); coins_of; try (rewrite ?Rplus_0_l, ?Rplus_0_r; reflexivity); try lra;
  match goal with |- context [Rlt_dec ?a ?b] => destruct (Rlt_dec a b); (reflexivity || lra) end.
(** equal weights: nothing moves *)
Lemma self_00 u : (0 < u < 1)%R -> selfavg (col2 0 0) u = (1 / 4)%R.
Proof. intros Hu. ancestors_are [0; 1] (1/4)%R (1/4)%R. Qed.
Lemma self_11 u : (0 < u < 1)%R -> selfavg (col2 1 1) u = (3 / 4)%R.
Proof. intros Hu. ancestors_are [0; 1] (3/4)%R (3/4)%R. Qed.
(** the particle with x = 1 replaces the other one when the offset is above 1/2 *)
Lemma self_01l u : (0 < u < 1/2)%R -> selfavg (col2 0 1) u = (1 / 2)%R.
Proof. intros Hu. ancestors_are [0; 1] (1/4)%R (3/4)%R. Qed.
Lemma self_01r u : (1/2 < u < 1)%R -> selfavg (col2 0 1) u = 1%R.
Proof. intros Hu. ancestors_are [1; 1] (1/4)%R (3/4)%R. Qed.
Lemma self_10l u : (0 < u < 1/2)%R -> selfavg (col2 1 0) u = 1%R.
Proof. intros Hu. ancestors_are [0; 0] (3/4)%R (1/4)%R. Qed.
Lemma self_10r u : (1/2 < u < 1)%R -> selfavg (col2 1 0) u = (1 / 2)%R.
Proof. intros Hu. ancestors_are [0; 1] (3/4)%R (1/4)%R. Qed.
Lemma self_offset a b : one_offset (first_draw (run selfV VNone dimsV (st0 PopL)) (col2 a b)).
Proof.
  assert (G : forall u, (0 < u)%R -> (u < 1)%R -> match first_draw (first_draw (run selfV VNone dimsV (st0 PopL)) (col2 a b)) (offset_at u) with Leaf _ => True | _ => False end).
  { intros u Hu0 Hu1. destruct (ancestors2 (0 + (ln (heads (coin_of a) 1) + 0)) (0 + (ln (heads (coin_of b) 1) + 0)) u (conj Hu0 Hu1)) as (l & H & Hl).
    assert (G := self_gen a b l u _ _ eq_refl eq_refl (coin_of_pos a) (coin_of_pos b) H Hl).
    destruct (first_draw (first_draw (run selfV VNone dimsV (st0 PopL)) (col2 a b)) (offset_at u)); [exact I|contradiction]. }
  assert (E : exists k, first_draw (run selfV VNone dimsV (st0 PopL)) (col2 a b) = Draw DrawRand k) by (eexists; reflexivity).
  destruct E as [k E]. rewrite E in *. exact G.
Qed.
Lemma RInt_halves (f : R -> R) a b : (forall u, (0 < u < 1/2)%R -> f u = a) -> (forall u, (1/2 < u < 1)%R -> f u = b) ->
  RInt f 0 1 = ((a + b) / 2)%R.
Proof.
  intros Ha Hb. apply is_RInt_unique. replace ((a + b) / 2)%R with (plus ((1/2 - 0) * a) ((1 - 1/2) * b))%R by (unfold plus; cbn; field).
  apply (is_RInt_Chasles f 0 (1/2) 1).
  - apply (is_RInt_ext (fun _ => a)); [|apply (is_RInt_const (V := R_NormedModule) 0 (1/2) a)].
    rewrite Rmin_left, Rmax_right by lra. intros u Hu. symmetry. apply Ha. lra.
  - apply (is_RInt_ext (fun _ => b)); [|apply (is_RInt_const (V := R_NormedModule) (1/2) 1 b)].
    rewrite Rmin_left, Rmax_right by lra. intros u Hu. symmetry. apply Hb. lra.
Qed.

(** Resampling a program with an observation, and proposing the result for the same program, is
    biased: the expected average weight is 23/32 instead of 20/32. *)
Theorem C62_population_refuted :
  copies PopV 2 1 PopP selfV self1 /\ clean (st0 PopL) /\
  expectation PopP (run selfV VNone dimsV (st0 PopL)) (weighted_average PopV 2 PopP 0 (fun _ _ => 1%R)) = (23 / 32)%R /\
  density_sum coins (target self1 VNone (kmap (part PopP 0 0) dimsV)) (fun _ _ => 1%R) = (20 / 32)%R.
Proof.
  split; [|split; [|split]].
  - assert (H : copies PopV 2 1 PopP (IProg (L := PopL) 3 sig_model obsV) (IProg (L := OneL) 3 sig_model obs1) /\
                copies PopV 2 1 PopP (IProg (L := PopL) 1 sig_model obsV) (IProg (L := OneL) 1 sig_model obs1)).
    { split; constructor; intros s b c kws Hs Hb Hc; unfold obsV, obs1;
      apply (copies_sample PopV 2 1 PopP s b "x" (fun _ _ => true)); intros v Hv;
      replace [1%R] with (part PopP s b (col2 1 1)) by (destruct s as [|[|s]], b as [|b]; try lia; reflexivity);
      apply (copies_observe PopV 2 1 PopP s b "y" (coinV v)); try apply col2_particles; intros u Hu;
      apply (copies_ret PopV 2 1 PopP s b (VDict [("x", VTensor v)])); repeat split; apply Hv. }
    unfold selfV, self1. constructor; try reflexivity; try exact I; [apply H|]. constructor; try reflexivity; try exact I. apply H.
  - intros i. reflexivity.
  - transitivity (mean PopP (fun _ _ => true) (fun x => expectation PopP (first_draw (run selfV VNone dimsV (st0 PopL)) x) (weighted_average PopV 2 PopP 0 (fun _ _ => 1%R)))); [reflexivity|].
    cbn [mean PopP]. rewrite !offset_mean by apply self_offset.
    fold (selfavg (col2 0 0)) (selfavg (col2 0 1)) (selfavg (col2 1 0)) (selfavg (col2 1 1)). rewrite (RInt_halves _ (1/4) (1/4)), (RInt_halves _ (1/2) 1), (RInt_halves _ 1 (1/2)), (RInt_halves _ (3/4) (3/4)).
    + rewrite heads0, heads1. lra.
    + intros u Hu. apply self_11. lra.
    + intros u Hu. apply self_11. lra.
    + apply self_10l.
    + apply self_10r.
    + apply self_01l.
    + apply self_01r.
    + intros u Hu. apply self_00. lra.
    + intros u Hu. apply self_00. lra.
  - unfold self1. cbn [target]. unfold obs1. cbn [density_sum]. cbn [integral coins space]. rewrite !coin_mass.
    assert (E0 : coin1 [0%R] = false) by (unfold coin1; cbn; destruct (Req_EM_T 0 1); [lra|reflexivity]).
    assert (E1 : coin1 [1%R] = true) by (unfold coin1; cbn; destruct (Req_EM_T 1 1); [reflexivity|congruence]).
    rewrite E0, E1, !heads1, !heads0. lra.
Qed.
Print Assumptions C62_population_refuted.
