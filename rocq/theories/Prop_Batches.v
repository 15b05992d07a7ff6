(** Property C98: batch entries do not influence each other, with resampling. *)
From Coq Require Import Lra Lia.
From Verif Require Import SpecNatural Thm_Natural SpecParticles Thm_Systematic Thm_Resampled Thm_Total Instances InstancesPop InstancesGrid SpecTotal Prop_Total Prop_Particles Prop_Natural.
Open Scope nat_scope.

Lemma systematic_eq2 {LV : lib} (W : array_view LV) N B nrm tr lw kws : 0 < N -> log_weights W N B lw ->
  dget "sample_dims" kws = Some (VInt 0) -> dget "batch_dim" kws = Some (VInt 1) ->
  systematic_call W nrm tr lw kws =
  Draw DrawRand (fun v => Leaf (rbind (resample_nodes W (aidx W N B lw v) tr) (fun tr2 =>
    Ok (tr2, of_arr W (if nrm then log_softmax (mean_weight (to_arr W lw)) else mean_weight (to_arr W lw)))))).
Proof.
  intros HN Hw Esd Ebd. pose proof (lws_tensor W N B _ Hw) as Ht. destruct Hw as [_ Hs].
  unfold systematic_call. rewrite Esd, Ebd. cbn [is_zero Z.eqb negb]. rewrite Ht. cbn [negb].
  unfold ancestor_indices. rewrite Hs. change (norm_dim (length [N; B]) 1) with (Some 1). cbv iota beta. cbn [nth tbind].
  rewrite (proj2 (Nat.eqb_neq N 0)) by lia. rewrite Nat.eqb_refl. cbn [tbind rbind]. reflexivity.
Qed.
Lemma log_softmax_finite {LV : lib} (W : array_view LV) N B lw : 0 < N -> log_weights W N B lw ->
  log_weights W N B (of_arr W (log_softmax (to_arr W lw))).
Proof.
  intros HN Hw. set (x := of_arr W (log_softmax (to_arr W lw))). assert (Ex : to_arr W x = log_softmax (to_arr W lw)) by apply to_of.
  assert (Hsh : shape (to_arr W x) = [N; B]) by (rewrite Ex; apply Hw).
  split; [|exact Hsh]. split; [split; [apply of_tensor|rewrite Hsh; reflexivity]|].
  rewrite Hsh. intros i Hi. apply grid_index in Hi. destruct Hi as (s & b & -> & Hs & Hb). rewrite Ex. cbn [log_softmax at_ nth tl]. fold (anc_col W lw b).
  pose proof (col_length W N B lw b Hw) as Hl.
  unfold softmax. rewrite nth_indep with (d' := (eexp NInf / rsum (map eexp (anc_col W lw b)))%R) by (rewrite map_length; lia).
  rewrite (map_nth (fun x => (eexp x / rsum (map eexp (anc_col W lw b)))%R)), (col_entry W N B HN) by assumption.
  assert (HZ : (0 < Z_hat (anc_col W lw b))%R) by (apply Z_hat_pos, (col_alive W N B HN); assumption).
  assert (HNR : (0 < INR N)%R) by (apply lt_0_INR; lia).
  assert (Hr : (0 < rsum (map eexp (anc_col W lw b)))%R).
  { unfold Z_hat in HZ. rewrite Hl in HZ. apply (Rmult_lt_compat_r (INR N)) in HZ; [|exact HNR]. rewrite Rmult_0_l in HZ. unfold Rdiv in HZ. rewrite Rmult_assoc, Rinv_l, Rmult_1_r in HZ by lra. exact HZ. }
  unfold elog. destruct (Rlt_dec _ _) as [_|H]; [eauto|]. exfalso. apply H. cbn [eexp]. apply Rdiv_lt_0_compat; [apply exp_pos|exact Hr].
Qed.

(** Systematic resampling of a choice of whole batch entries is the choice of the resampled batch entries. *)
Theorem C98_resampler : forall (LV LS : lib) (M : measures LS) (W : array_view LV) N B (P : population LV LS) B' (P' : population LV LS)
    (PL : population_laws W N B P M) (PL' : population_laws W N B' P' M) g normalize,
  0 < N -> (forall b', b' < B' -> g b' < B) ->
  resampler_rel (chosen_from W N B P N B' P' (fun s b => (s, g b))) (systematic W normalize) (systematic W normalize).
Proof.
  intros LV LS M W N B P B' P' PL PL' g nrm HN Hg. set (K := chosen_from _ _ _ _ _ _ _ _). split; [reflexivity|].
  intros tr tr' w w' kws kws' (sd & bd & rep & (-> & -> & _) & Psd & Pbd) Ht Hw Hk. cbn [rs_call systematic].
  pose proof (kget _ "sample_dims" _ _ Hk) as Hsd. pose proof (kget _ "batch_dim" _ _ Hk) as Hbd.
  destruct (dget "sample_dims" kws) as [sd|] eqn:Esd; [|unfold systematic_call; rewrite Esd; apply mi_fail; eexists; reflexivity].
  destruct (dget "batch_dim" kws) as [bd|] eqn:Ebd; [|unfold systematic_call; rewrite Esd, Ebd; apply mi_fail; eexists; reflexivity].
  specialize (Psd _ eq_refl). specialize (Pbd _ eq_refl). subst sd bd.
  destruct (dget "sample_dims" kws') as [sd'|] eqn:Esd'; cbn in Hsd; [|destruct Hsd]. destruct (dget "batch_dim" kws') as [bd'|] eqn:Ebd'; cbn in Hbd; [|destruct Hbd].
  inversion Hsd; inversion Hbd; subst. clear Hsd Hbd.
  destruct Hw as [[-> ->]|(W1 & W2 & W3)].
  { unfold systematic_call. rewrite Esd, Ebd. cbn [is_zero Z.eqb negb]. rewrite (float_zero _ _ _ _ _ PL). cbn [negb]. apply mi_fail. eexists. reflexivity. }
  rewrite (systematic_eq2 W N B) by assumption. rewrite (systematic_eq2 W N B') by assumption.
  apply mi_draw; [exact I|]. intros v v' (V1 & V2 & V3). apply mi_leaf.
  assert (Hcol : forall b', b' < B' -> anc_col W w' b' = anc_col W w (g b')).
  { intros b' Hb. apply nth_ext with (d := NInf) (d' := NInf); [rewrite (col_length W N B' w' b' W2), (col_length W N B w (g b') W1); reflexivity|].
    intros s Hs. rewrite (col_length W N B' w' b' W2) in Hs. rewrite (col_entry W N B' HN), (col_entry W N B HN) by auto. rewrite (W3 s b' Hs Hb). reflexivity. }
  assert (Hanc : forall s b', b' < B' -> anc W w' v' b' s = anc W w v (g b') s).
  { intros s b' Hb. unfold anc. rewrite Hcol by exact Hb. rewrite (V3 0 b' HN Hb). reflexivity. }
  assert (Hpick : forall z z' x, particles W N B z -> particles W N B' z' -> (forall s b', s < N -> b' < B' -> part P' s b' z' = part P s (g b') z) ->
    pick W z (aidx W N B w v) = Ok x ->
    exists x', pick W z' (aidx W N B' w' v') = Ok x' /\ particles W N B x /\ particles W N B' x' /\ (log_probs W N B z -> log_probs W N B x) /\
      (log_probs W N B' z' -> log_probs W N B' x') /\ forall s b', s < N -> b' < B' -> part P' s b' x' = part P s (g b') x).
  { intros z z' x Z1 Z2 Z3 E. destruct (Thm_Total.pick_total W N B' HN w' v' z' W2 V2 Z2) as [x' E']. exists x'. split; [exact E'|].
    destruct (pick_facts M W N B P PL HN _ _ _ _ W1 V1 Z1 E) as (A1 & A2 & A3). destruct (pick_facts M W N B' P' PL' HN _ _ _ _ W2 V2 Z2 E') as (B1 & B2 & B3).
    split; [exact A1|]. split; [exact B1|]. split; [exact A2|]. split; [exact B2|]. intros s b' Hs Hb.
    rewrite B3, A3, Hanc by auto. apply Z3; [|exact Hb]. apply (anc_lt W N B HN); auto. }
  assert (Hn : res_rel (trace_rel K) (resample_nodes W (aidx W N B w v) tr) (resample_nodes W (aidx W N B' w' v') tr')).
  { clear -Ht Hpick. induction Ht as [|[a r] [a' r'] tr tr' [E H] Htr IH]; cbn [resample_nodes]; [apply res_rel_ok; constructor|]. cbn in E, H. subst a'.
    eapply (res_rel_bind (rv_rel K)).
    - destruct H as [H0 (V1 & V2 & V3) (L1 & L2 & L3) H3 H4 H5]. unfold resample_rv, is_observed. rewrite <- H3, <- H5.
      destruct (negb (rv_resamplable r) || prov_eqb (rv_prov r) OBSERVED)%bool; [apply res_rel_ok; constructor; try assumption; cbn; auto|].
      destruct (pick W (rv_value r) _) as [x|] eqn:Ex; [|apply res_rel_err]. destruct (pick W (rv_logp r) _) as [y|] eqn:Ey; [|apply res_rel_err].
      destruct (Hpick _ _ _ V1 V2 V3 Ex) as (x' & -> & X1 & X2 & _ & _ & X3). destruct (Hpick _ _ _ (proj1 L1) (proj1 L2) L3 Ey) as (y' & -> & _ & _ & Y1 & Y2 & Y3).
      cbn [rbind]. destruct (rv_den r), (rv_den r'); cbn in H0; try tauto; try apply res_rel_err; apply res_rel_ok; constructor; cbn; auto.
    - intros x x' Hx. eapply res_rel_bind; [exact IH|]. intros y y' Hy. apply res_rel_ok. constructor; [split; [reflexivity|exact Hx]|exact Hy]. }
  eapply res_rel_bind; [exact Hn|]. intros t2 t2' Ht2. apply res_rel_ok. split; [exact Ht2|]. cbn [snd]. right.
  pose proof (proj1 (mean_facts W N B HN w W1)) as M1. pose proof (proj1 (mean_facts W N B' HN w' W2)) as M2.
  assert (Hm : forall s b', b' < B' -> at_ (mean_weight (to_arr W w')) [s; b'] = at_ (mean_weight (to_arr W w)) [s; g b']).
  { intros s b' Hb. cbn [mean_weight at_ tl]. fold (anc_col W w' b'). fold (anc_col W w (g b')). rewrite Hcol by exact Hb. rewrite (proj2 W1), (proj2 W2). reflexivity. }
  destruct nrm; (split; [|split]).
  - pose proof (log_softmax_finite W N B _ HN M1) as H. rewrite to_of in H. exact H.
  - pose proof (log_softmax_finite W N B' _ HN M2) as H. rewrite to_of in H. exact H.
  - intros s b' Hs Hb. unfold entry. rewrite !to_of. cbn [log_softmax at_ nth tl fst snd].
    assert (Hf : fiber0 (mean_weight (to_arr W w')) [b'] = fiber0 (mean_weight (to_arr W w)) [g b']).
    { unfold fiber0. cbn [shape mean_weight]. rewrite (proj2 W1), (proj2 W2). cbn [nth]. apply map_ext. intros k. apply Hm, Hb. }
    rewrite Hf. reflexivity.
  - exact M1.
  - exact M2.
  - intros s b' Hs Hb. unfold entry. rewrite !to_of. cbn [fst snd]. rewrite Hm by exact Hb. reflexivity.
Qed.
Print Assumptions C98_resampler.

(** C98. Batch entries do not influence each other, resampling included.  Some of the B batch
    entries are chosen, [g] telling which; a program whose user code treats batch entries
    alike, with any number of systematic Resample steps ([inf_rel], by C98_resampler), called
    with their arguments, draws and resampling offsets, returns for every particle of a chosen entry what it
    returned for it in the run on all B entries. *)
Theorem C98_batches : forall (LV LS : lib) (HL : lib_laws LV) (M : measures LS) (W : array_view LV) N B (P : population LV LS) B' (P' : population LV LS)
    (PL : population_laws W N B P M) (PL' : population_laws W N B' P' M) g t t' c c' kws kws' st st' ds o st1 vs,
  let K := chosen_from W N B P N B' P' (fun s b => (s, g b)) in
  0 < N -> (forall b', b' < B' -> g b' < B) ->
  (forall x, log_weights W N B x -> eq_zero LV x <> Ok true) ->
  inf_rel K t t' -> called K kws -> val_rel K c c' -> kw_rel K kws kws' -> st_rel K st st' ->
  path (run t c kws st) ds (Ok o, st1) ->
  Forall2 (fun dv v' => match fst dv with
     | DrawDist _ _ _ => particles W N B (snd dv) /\ particles W N B' v' /\ forall s b', s < N -> b' < B' -> part P' s b' v' = part P s (g b') (snd dv)
     | DrawRand => drawn W N B DrawRand (snd dv) /\ drawn W N B' DrawRand v' /\ forall b', b' < B' -> offset W b' v' = offset W (g b') (snd dv) end) ds vs ->
  exists ds' o' st1', path (run t' c' kws' st') ds' (Ok o', st1') /\ map snd ds' = vs /\
    map fst (out_trace o') = map fst (out_trace o) /\ val_rel K (out_output o) (out_output o') /\
    ((out_lw o = tzero LV /\ out_lw o' = tzero LV) \/ (log_weights W N B (out_lw o) /\ log_weights W N B' (out_lw o'))) /\
    forall s b', s < N -> b' < B' ->
      (out_lw o = tzero LV \/ entry W s b' (out_lw o') = entry W s (g b') (out_lw o)) /\
      map (fun kr => (part P' s b' (rv_value (snd kr)), part P' s b' (rv_logp (snd kr)))) (out_trace o') =
      map (fun kr => (part P s (g b') (rv_value (snd kr)), part P s (g b') (rv_logp (snd kr)))) (out_trace o).
Proof.
  intros LV LS HL M W N B P B' P' PL PL' g t t' c c' kws kws' st st' ds o st1 vs K HN Hg Hr Ht HC Hc Hk Hst Hp Hv.
  apply (C97_chosen LV LS HL M W N B P N B' P' PL PL' (fun s b => (s, g b)) t t' c c' kws kws' st st' ds o st1 vs); try assumption.
  - intros s b Hs Hb. split; [exact Hs|apply Hg, Hb].
  - eapply Forall2_weaken; [|exact Hv]. intros [[d rep sh|] v] v'; cbn [fst snd]; [auto|]. intros (H1 & H2 & H3). auto.
Qed.
Print Assumptions C98_batches.

(** ** an instance: coins, any numbers of particles and batch entries; x is proposed, resampled, and z is drawn with the coin x selects *)
Lemma xV_grid N B N' B' from c c' s b : s < N' -> b < B' -> val_rel (chosen_from PopV N B (GridP N B) N' B' (GridP N' B') from) c c' ->
  slice s b (xV c') = slice (fst (from s b)) (snd (from s b)) (xV c).
Proof.
  intros Hs Hb H. assert (E0 : slice s b (col2 0 0) = slice (fst (from s b)) (snd (from s b)) (col2 0 0)).
  { cbn. destruct (s =? 0), (fst (from s b) =? 0); reflexivity. }
  destruct H as [ | | | | |l l' H|d d' H| ]; try exact E0. cbn [xV].
  induction H as [|[a x] [a' x'] d d' [E Hx] H IH]; cbn [dget]; [exact E0|]. cbn in E, Hx. subst a'. destruct (String.eqb "x" a); [|exact IH].
  destruct Hx as [ | | | |y y' (_ & _ & Hy)| | | ]; try exact E0. apply (Hy s b); assumption.
Qed.
Lemma firstV_grid N B N' B' from : inf_rel (chosen_from PopV N B (GridP N B) N' B' (GridP N' B') from) firstV firstV.
Proof.
  set (K := chosen_from _ _ _ _ _ _ _ _).
  assert (Ho : opts_rel K optsV optsV) by (constructor; [intros; apply res_rel_ok; exact I|exact I|constructor|reflexivity]).
  apply ir_propose; [apply ir_prog|apply ir_compose; [apply ir_prog|apply ir_prog|exact Ho]|exact Ho|exact I]; intros c c' kws kws' Hc Hk; unfold sampleV, auxV;
    (change (MVar (L := PopL) ?a) with (MVar (L := PopL) (ren K a)) at 2; eapply mr_var; [|exact I|]).
  all: try (intros v v' Hv; apply mr_ret, vr_dict; constructor; [split; [reflexivity|apply vr_tensor, Hv]|constructor]).
  - intros s b Hs Hb. reflexivity.
  - intros s b Hs Hb. cbn [dpart GridP fst snd]. unfold coinV. f_equal. apply (xV_grid N B N' B' from c c' s b Hs Hb Hc).
  - intros s b Hs Hb. reflexivity.
Qed.
Lemma movedV_grid N B B' g : 0 < N -> (forall b', b' < B' -> g b' < B) -> inf_rel (chosen_from PopV N B (GridP N B) N B' (GridP N B') (fun s b => (s, g b))) movedV movedV.
Proof.
  intros HN Hg. set (K := chosen_from _ _ _ _ _ _ _ _).
  assert (Ho : opts_rel K optsV optsV) by (constructor; [intros; apply res_rel_ok; exact I|exact I|constructor|reflexivity]).
  apply ir_compose; [apply ir_prog| |exact Ho].
  - intros c c' kws kws' Hc Hk. unfold moveV. change (MVar (L := PopL) ?a) with (MVar (L := PopL) (ren K a)) at 2. eapply mr_var; [|exact I|].
    + intros s b Hs Hb. cbn [dpart GridP fst snd]. unfold coinV. f_equal. apply (xV_grid N B N B' _ c c' s b Hs Hb Hc).
    + intros v v' Hv; apply mr_ret, vr_dict; constructor; [split; [reflexivity|apply vr_tensor, Hv]|constructor].
  - apply ir_resample; [apply firstV_grid|constructor|exact I|]. apply (C98_resampler PopL OneL coins); try assumption; apply GridP_laws.
Qed.
Lemma movedV_well_formed N B : 0 < N -> exists k, well_formed (particle_sorts PopV N B) dimsV movedV k k.
Proof.
  intros HN. exists (mkContract ["x"; "z"] ["x"; "z"] true (Some [])).
  unfold movedV. apply (wf_compose _ _ _ _ _ _ (mkContract ["x"] ["x"] true (Some [])) (mkContract ["x"] ["x"] true (Some []))
      (mkContract ["z"] ["z"] false (Some [])) (mkContract ["z"] ["z"] false (Some []))).
  + unfold againV. apply (wf_resample _ _ _ _ _ _ _ _ _ (mkContract ["x"] ["x"] true (Some [])) []); try reflexivity; [|intros a []|].
    * unfold firstV. apply (wf_propose _ _ _ _ _ _ _ (mkContract ["x"] ["x"] false (Some [])) (mkContract ["x"] ["x"] false (Some []))
        (mkContract ["x"; "w"] ["x"; "w"] false (Some [])) (mkContract ["x"; "w"] ["x"; "w"] false (Some []))).
      -- apply wf_program; [reflexivity|]. intros c kws _ _. unfold sampleV. steps. apply (fine_ret (L := PopL)).
         split; [in_list|]. split; [in_list|]. split; [discriminate|]. output.
      -- apply (wf_compose _ _ _ _ _ _ (mkContract ["x"] ["x"] false (Some [])) (mkContract ["x"] ["x"] false (Some []))
           (mkContract ["w"] ["w"] false (Some [])) (mkContract ["w"] ["w"] false (Some []))).
         ++ apply wf_program; [reflexivity|]. intros c kws _ _. unfold sampleV. steps. apply (fine_ret (L := PopL)).
            split; [in_list|]. split; [in_list|]. split; [discriminate|]. output.
         ++ apply wf_program; [reflexivity|]. intros c kws _ _. unfold auxV. steps. apply (fine_ret (L := PopL)).
            split; [in_list|]. split; [in_list|]. split; [discriminate|]. output.
         ++ intros a Ha Hb. cbn in Ha, Hb. intuition congruence.
         ++ intros r l. eexists. reflexivity.
      -- reflexivity.
      -- intros [].
      -- intros r l. eexists. reflexivity.
      -- right. right. exists "x". in_list.
    * cbn [dimsV kwarg dget]. eapply C60_systematic; [apply GridP_laws|exact HN].
  + apply wf_program; [reflexivity|]. intros c kws _ _. unfold moveV. steps. apply (fine_ret (L := PopL)).
    split; [in_list|]. split; [in_list|]. split; [discriminate|]. output.
  + intros a Ha Hb. cbn in Ha, Hb. intuition congruence.
  + intros r l. eexists. reflexivity.
Qed.

(** the run in which every draw is the one [ch] chooses *)
Lemma follow {L : lib} {A} (ch : draw_kind L -> T L) (t : stree L A) : exists ds a, path t ds a /\ Forall (fun kv => snd kv = ch (fst kv)) ds.
Proof.
  induction t as [a|d k IH]; [exists [], a; split; constructor|]. destruct (IH (ch d)) as (ds & a & Hp & Hf). exists ((d, ch d) :: ds), a. split; constructor; auto.
Qed.
Lemma follow_possible {L : lib} (W : array_view L) N B {A} (t : stree L A) ds a : path t ds a -> Forall (fun kv => drawn W N B (fst kv) (snd kv)) ds -> possible W N B t a.
Proof. induction 1; intros H0; [constructor|]. inversion H0; subst. econstructor; eauto. Qed.
Definition offsets (B : nat) (u : nat -> R) : ten := Ten (mkArr [B] (fun i => Fin (u (nth 0 i 0)))).
Definition coinsV (N B : nat) (f : nat -> nat -> R) (u : nat -> R) (d : draw_kind PopL) : ten :=
  match d with DrawDist _ _ _ => grid N B f | DrawRand => offsets B u end.
Example C98_case : forall N B B' g f u, 0 < N -> (forall b', b' < B' -> g b' < B) -> (forall b, (0 <= u b < 1)%R) ->
  let K := chosen_from PopV N B (GridP N B) N B' (GridP N B') (fun s b => (s, g b)) in
  inf_rel K movedV movedV /\ called K dimsV /\
  exists ds o s1 ds' o' s1',
    path (run movedV VNone dimsV (st0 PopL)) ds (Ok o, s1) /\ Forall (fun kv => snd kv = coinsV N B f u (fst kv)) ds /\
    path (run movedV VNone dimsV (st0 PopL)) ds' (Ok o', s1') /\ map snd ds' = map (fun kv => coinsV N B' (fun s b' => f s (g b')) (fun b' => u (g b')) (fst kv)) ds /\
    forall s b', s < N -> b' < B' -> entry PopV s b' (out_lw o') = entry PopV s (g b') (out_lw o).
Proof.
  intros N B B' g f u HN Hg Hu K. pose proof (movedV_grid N B B' g HN Hg) as H1.
  assert (H2 : called K dimsV) by (split; [repeat constructor; cbn; intuition congruence|cbn; auto]).
  split; [exact H1|]. split; [exact H2|].
  destruct (follow (coinsV N B f u) (run movedV VNone dimsV (st0 PopL))) as (ds & [[o|e] s1] & Hp & Hf).
  2:{ exfalso. destruct (movedV_well_formed N B HN) as [k Wf]. destruct C59_hypotheses as (_ & _ & _ & Hpc & Hrest & _).
      assert (Hposs : possible PopV N B (run movedV VNone dimsV (st0 PopL)) (Err e, s1)).
      { apply (follow_possible PopV N B _ ds _ Hp). eapply Forall_impl; [|exact Hf]. intros [[d rep sh|] v] ->; cbn [fst snd coinsV]; [apply grid_particles|]. intros b Hb. apply Hu. }
      revert Hposs. eapply (C60_populations PopL OneL PopL_laws coins PopV N B (GridP N B) (GridP_laws N B)); try eassumption; try reflexivity; try exact I.
      cbn. destruct (Req_EM_T 0 0); congruence. }
  destruct (C98_batches PopL OneL PopL_laws coins PopV N B (GridP N B) B' (GridP N B') (GridP_laws N B) (GridP_laws N B') g movedV movedV VNone VNone dimsV dimsV (st0 PopL) (st0 PopL) ds o s1
      (map (fun kv => coinsV N B' (fun s b' => f s (g b')) (fun b' => u (g b')) (fst kv)) ds)) as (ds' & o' & s1' & Hp' & Ed & _ & _ & Hz & Hw); try assumption.
  - intros x Hx. destruct Hx as [[[Ht _] _] _]. destruct x; discriminate.
  - constructor.
  - repeat constructor.
  - apply st0_rel.
  - clear -Hf Hu. induction Hf as [|[[d rep sh|] v] ds E Hf IH]; cbn [map fst snd] in *; constructor; try exact IH; cbn [fst snd coinsV] in *; subst v.
    + split; [apply grid_particles|]. split; [apply grid_particles|]. intros s b' _ _. reflexivity.
    + split; [intros b Hb; apply Hu|]. split; [intros b Hb; apply Hu|]. intros b' _. reflexivity.
  - exists ds, o, s1, ds', o', s1'. split; [exact Hp|]. split; [exact Hf|]. split; [exact Hp'|]. split; [exact Ed|].
    intros s b' Hs Hb. destruct (proj1 (Hw s b' Hs Hb)) as [H|H]; [|exact H]. destruct Hz as [[-> ->]|[Hz _]]; [reflexivity|].
    rewrite H in Hz. destruct Hz as [[[Hz _] _] _]. discriminate.
Qed.
