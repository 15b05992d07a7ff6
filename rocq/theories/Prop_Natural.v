(** Properties C93, C94, C95, C96 and C97: the combinators treat addresses, particles and gradients abstractly. *)
From Coq Require Import Lra Lia.
From Verif Require Import SpecNatural Thm_Natural SpecParticles Instances InstancesPop InstancesArr Prop_Particles.
Open Scope nat_scope.

(** Two programs made of the same combinators around related user code, called in related states
    with related arguments: whatever the left one draws and returns, the right one returns a related
    result on every related list of draws, and draws from related distributions in the same order. *)
Theorem C93_natural : forall (L L' : lib) (K : relations L L') t t' c c' kws kws' s s' ds o s1 vs,
  respected K -> (forall l, Permutation (order L l) l) -> (forall l, Permutation (order L' l) l) -> (lib_laws L \/ lib_laws L') ->
  inf_rel K t t' -> called K kws -> val_rel K c c' -> kw_rel K kws kws' -> st_rel K s s' ->
  path (run t c kws s) ds (Ok o, s1) -> Forall2 (fun dv v' => drawn_rel K (fst dv) (snd dv) v') ds vs ->
  exists ds' o' s1', path (run t' c' kws' s') ds' (Ok o', s1') /\ map snd ds' = vs /\
    Forall2 (fun dv dv' => kind_rel K (fst dv) (fst dv')) ds ds' /\ out_rel K o o' /\ st_rel K s1 s1'.
Proof.
  intros L L' K t t' c c' kws kws' s s' ds o s1 vs RK OL OL' HL Ht HC Hc Hk Hs Hp Hv.
  assert (Hn : ~ failed (L := L) (A := out L) (Ok o, s1)) by (intros [e He]; discriminate).
  destruct (mirrors_path K _ _ _ _ (run_rel K RK (conj OL OL') HL t t' Ht c c' kws kws' s s' HC Hc Hk Hs) _ _ _ Hp Hn Hv) as (ds' & [r s1'] & E & Hp' & Hkd & a & b & E1 & E2 & Ho & Hs1).
  cbn in *. injection E1 as <-. subst r. exists ds', b, s1'. auto.
Qed.
Print Assumptions C93_natural.

Lemma Forall2_weaken {A B} (R Q : A -> B -> Prop) l l' : (forall a b, R a b -> Q a b) -> Forall2 R l l' -> Forall2 Q l l'.
Proof. intros H. induction 1; constructor; auto. Qed.

(** ** Renaming *)
Lemma plain_eq {L L' : lib} (K : relations L L') (v : pyval (T L)) v' : plain_value v -> val_rel K v v' ->
  match v with VNone => v' = VNone | VBool b => v' = VBool b | VInt z => v' = VInt z | VStr s => v' = VStr s | _ => False end.
Proof. intros H Hv. destruct Hv; cbn in *; try tauto; reflexivity. Qed.
Lemma plain_same {L : lib} (K : relations L L) (v v' : pyval (T L)) : plain_value v -> val_rel K v v' -> v' = v.
Proof. intros H Hv. apply (plain_eq K) in Hv; [|exact H]. destruct v; cbn in *; tauto. Qed.
Lemma renaming_respected L f : (forall a b, f a = f b -> a = b) -> respected (renaming L f).
Proof.
  intros Hf. constructor; cbn; try (intros; subst; reflexivity); try (intros; subst; assumption); try (intros; congruence).
  - exact Hf.
  - intros sd sd' bd bd' rep x x' (H1 & H2 & _) Hs Hb ->. rewrite (plain_same _ _ _ H1 Hs), (plain_same _ _ _ H2 Hb). reflexivity.
  - intros sd bd rep rep' b p (_ & _ & H) Hr. rewrite (plain_same _ _ _ H Hr). auto.
Qed.

(** Renaming all addresses with an injective function changes nothing but the names: same draws
    from the same distributions, same log-weight, same loss, and a trace with the same values and log-probabilities, in the same
    order, under the new names. *)
Theorem C93_rename : forall (L : lib) (HL : lib_laws L) f t t' c c' kws kws' s s' ds o s1,
  (forall a b, f a = f b -> a = b) ->
  inf_rel (renaming L f) t t' -> called (renaming L f) kws -> val_rel (renaming L f) c c' -> kw_rel (renaming L f) kws kws' -> st_rel (renaming L f) s s' ->
  path (run t c kws s) ds (Ok o, s1) ->
  exists ds' o' s1', path (run t' c' kws' s') ds' (Ok o', s1') /\ map snd ds' = map snd ds /\
    Forall2 (fun dv dv' => kind_rel (renaming L f) (fst dv) (fst dv')) ds ds' /\
    out_lw o' = out_lw o /\ out_loss o' = out_loss o /\
    map (fun kr => (fst kr, (rv_value (snd kr), rv_logp (snd kr), rv_prov (snd kr)))) (out_trace o') =
    map (fun kr => (f (fst kr), (rv_value (snd kr), rv_logp (snd kr), rv_prov (snd kr)))) (out_trace o) /\
    out_rel (renaming L f) o o' /\ st_rel (renaming L f) s1 s1'.
Proof.
  intros L HL f t t' c c' kws kws' s s' ds o s1 Hf Ht HC Hc Hk Hs Hp.
  destruct (C93_natural L L (renaming L f) t t' c c' kws kws' s s' ds o s1 (map snd ds)) as (ds' & o' & s1' & Hp' & E & Hkd & Ho & Hs1); try assumption.
  - apply renaming_respected, Hf.
  - apply (order_perm L HL).
  - apply (order_perm L HL).
  - left. exact HL.
  - clear. induction ds as [|[d v] ds IH]; constructor; [|exact IH]. destruct d; reflexivity.
  - exists ds', o', s1'. split; [exact Hp'|]. split; [exact E|]. split; [exact Hkd|]. destruct Ho as [tr tr' w w' cc cc' ty ix ix' l l' m m' px px' subs subs' Htr Hw Hcc Hix Hl Hm Hpx Hsub]. cbn [out_lw out_loss out_trace].
    split; [symmetry; exact Hw|]. split; [|split; [|split; [|exact Hs1]]].
    + destruct l, l'; cbn in Hl; subst; tauto.
    + clear -Htr. induction Htr as [|[a r] [a' r'] tr tr' [E H] Htr IH]; cbn; [reflexivity|]. rewrite IH. cbn in E. subst a'.
      destruct H as [_ H1 H2 H3 _ _]. cbn in *. rewrite H1, H2, H3. reflexivity.
    + constructor; assumption.
Qed.
Print Assumptions C93_rename.

(** The systematic resampler does not look at addresses either, so Resample steps may occur. *)
Theorem C93_resampler : forall (L : lib) (W : array_view L) f normalize,
  (forall a b, f a = f b -> a = b) -> resampler_rel (renaming L f) (systematic W normalize) (systematic W normalize).
Proof.
  intros L W f normalize Hf. split; [reflexivity|]. intros tr tr' w w' kws kws' _ Ht Hw Hk. cbn in Hw. subst w'. cbn [rs_call systematic]. unfold systematic_call.
  pose proof (kget _ "sample_dims" _ _ Hk) as Hsd. pose proof (kget _ "batch_dim" _ _ Hk) as Hbd.
  destruct (dget "sample_dims" kws) as [sd|], (dget "sample_dims" kws') as [sd'|]; cbn in Hsd; try tauto; [|apply mi_fail; eexists; reflexivity].
  destruct (dget "batch_dim" kws) as [bd|], (dget "batch_dim" kws') as [bd'|]; cbn in Hbd; try tauto; [|apply mi_fail; eexists; reflexivity].
  replace (is_zero sd') with (is_zero sd) by (destruct Hsd; reflexivity).
  destruct (negb (is_zero sd)); [apply mi_fail; eexists; reflexivity|]. destruct (negb (is_tensor L w)); [apply mi_fail; eexists; reflexivity|].
  assert (Hn : forall ai, res_rel (trace_rel (renaming L f)) (resample_nodes W ai tr) (resample_nodes W ai tr')).
  { intros ai. clear -Ht. induction Ht as [|[a r] [a' r'] tr tr' [E H] Htr IH]; cbn [resample_nodes]; [apply res_rel_ok; constructor|]. cbn in E, H. subst a'.
    eapply (res_rel_bind (rv_rel (renaming L f))).
    - destruct H as [H0 H1 H2 H3 H4 H5]. unfold resample_rv, is_observed. cbn in H1, H2. rewrite <- H1, <- H2, <- H3, <- H5.
      destruct (negb (rv_resamplable r) || prov_eqb (rv_prov r) OBSERVED)%bool; [apply res_rel_ok; constructor; assumption|].
      destruct (pick W (rv_value r) ai) as [v|]; [|apply res_rel_err]. destruct (pick W (rv_logp r) ai) as [p|]; [|apply res_rel_err]. cbn.
      destruct (rv_den r), (rv_den r'); cbn in H0; try tauto; try apply res_rel_err; apply res_rel_ok; constructor; cbn; auto.
    - intros x x' Hx. eapply res_rel_bind; [exact IH|]. intros y y' Hy. apply res_rel_ok. constructor; [split; [reflexivity|exact Hx]|exact Hy]. }
  assert (Hfin : forall lw ra, res_rel (fun a b => trace_rel (renaming L f) (fst a) (fst b) /\ r_weight (renaming L f) (snd a) (snd b))
     (rbind ra (fun aidx => rbind (resample_nodes W aidx tr) (fun tr2 => let lw1 := mean_weight lw in Ok (tr2, of_arr W (if normalize then log_softmax lw1 else lw1)))))
     (rbind ra (fun aidx => rbind (resample_nodes W aidx tr') (fun tr2 => let lw1 := mean_weight lw in Ok (tr2, of_arr W (if normalize then log_softmax lw1 else lw1)))))).
  { intros lw [ai|e]; [|apply res_rel_err]. cbn. eapply res_rel_bind; [apply Hn|]. intros x x' Hx. apply res_rel_ok. split; [exact Hx|reflexivity]. }
  assert (Ha : forall lw z (g : res iarr -> res iarr),
     mirrors (renaming L f) (fun x => exists e, x = Err e) (res_rel (fun a b => trace_rel (renaming L f) (fst a) (fst b) /\ r_weight (renaming L f) (snd a) (snd b)))
       (tbind (ancestor_indices W lw z) (fun r => Leaf (rbind (g r) (fun aidx => rbind (resample_nodes W aidx tr) (fun tr2 => let lw1 := mean_weight lw in Ok (tr2, of_arr W (if normalize then log_softmax lw1 else lw1)))))))
       (tbind (ancestor_indices W lw z) (fun r => Leaf (rbind (g r) (fun aidx => rbind (resample_nodes W aidx tr') (fun tr2 => let lw1 := mean_weight lw in Ok (tr2, of_arr W (if normalize then log_softmax lw1 else lw1)))))))).
  { intros lw z g. apply (mi_bind _ (fun _ => False) eq).
    - unfold ancestor_indices. destruct (shape lw) as [|n sh]; [apply mi_leaf; reflexivity|]. destruct (norm_dim _ z); [|apply mi_leaf; reflexivity].
      apply mi_draw; [exact I|]. intros v v' Hv. cbn in Hv. subst v'. destruct (n =? 0); [apply mi_leaf; reflexivity|].
      destruct sh as [|m [|]]; try (apply mi_leaf; reflexivity). destruct (m =? _); apply mi_leaf; reflexivity.
    - intros a [].
    - intros a b <-. apply mi_leaf, Hfin. }
  destruct Hbd; try (apply mi_fail; eexists; reflexivity).
  - destruct (negb _); [apply mi_fail; eexists; reflexivity|]. apply (Ha _ _ (rmap squeeze1)).
  - apply (Ha _ _ (fun r => r)).
  - apply (Ha _ _ (fun r => r)).
Qed.
Print Assumptions C93_resampler.

(** what a call with given draws returns, by computation; [f] extracts first-order data *)
Lemma drawn_by {L : lib} {A B} (m : M L A) s vs (f : list (draw_kind L * T L) -> A -> B) b :
  match walkd (m s) vs with Some (ds, (Ok o, s')) => Some (map snd ds, f ds o) | _ => None end = Some (vs, b) ->
  exists ds o s', path (m s) ds (Ok o, s') /\ map snd ds = vs /\ f ds o = b.
Proof.
  destruct (walkd (m s) vs) as [[ds [[o|e] s']]|] eqn:E; intros H; try discriminate.
  exists ds, o, s'. split; [apply (walkd_path _ _ _ _ E)|]. injection H. auto.
Qed.

(** Propose(p, Compose(k, q)) on integers, and the same with "model/" in front of every address *)
Definition prefixed (a : string) : string := ("model/" ++ a)%string.
Lemma prefixed_inj a b : prefixed a = prefixed b -> a = b.
Proof. unfold prefixed. cbn. intros H. injection H. auto. Qed.
Definition xy_model' : pyval ZT -> dict (pyval ZT) -> model ZL := fun _ _ =>
  MVar (L := ZL) "model/x" 3%Z None true (fun x =>
  MVar (L := ZL) "model/y" 5%Z (Some (zten 7, None)) true (fun _ =>
  MRet (L := ZL) (VDict [("model/x"%string, VTensor x)]))).
Definition ax_model' : pyval ZT -> dict (pyval ZT) -> model ZL := fun _ _ =>
  MVar (L := ZL) "model/a" 0%Z None true (fun _ =>
  MVar (L := ZL) "model/x" 1%Z None true (fun x => MRet (L := ZL) (VDict [("model/x"%string, VTensor x)]))).
Example C93_resampler_case : resampler_rel (renaming TenL prefixed) (systematic TenV true) (systematic TenV true).
Proof. apply C93_resampler, prefixed_inj. Qed.
Definition z_model' : pyval ZT -> dict (pyval ZT) -> model ZL := fun _ _ =>
  MVar (L := ZL) "model/z" 4%Z None true (fun z => MRet (L := ZL) (VDict [("model/z"%string, VTensor z)])).
Definition prop_z (p q k : pyval ZT -> dict (pyval ZT) -> model ZL) : inf ZL :=
  IPropose (L := ZL) 9 (IProg (L := ZL) 1 sig_model p) (ICompose (L := ZL) 8 (IProg (L := ZL) 2 sig_model k) (IProg (L := ZL) 3 sig_model q) opts0) opts0 None false.
Lemma opts0_rel K : opts_rel (L := ZL) (L' := ZL) K opts0 opts0.
Proof. constructor; [intros; apply res_rel_ok; assumption|exact I|constructor|reflexivity]. Qed.
Lemma st0_rel {L L' : lib} (K : relations L L') : st_rel K (st0 L) (st0 L').
Proof. constructor; [intros i; exact I|constructor|intros; apply res_rel_ok; assumption]. Qed.
Ltac rels := repeat first [progress intros | match goal with
  | H : r_value _ _ _ |- r_value _ _ _ => exact H
  | |- model_rel _ (MVar _ _ _ _ _) _ => eapply mr_var
  | |- model_rel _ (MRet _) _ => eapply mr_ret
  | |- val_rel _ (VDict _) _ => eapply vr_dict
  | |- val_rel _ (VTensor _) _ => eapply vr_tensor
  | |- val_rel _ (snd (_, _)) _ => cbn [snd]
  | |- Forall2 _ (_ :: _) _ => eapply Forall2_cons
  | |- Forall2 _ [] _ => eapply Forall2_nil
  | |- _ /\ _ => split
  | |- opt_rel _ None None => exact I
  | |- opt_rel _ (Some _) (Some _) => split; cbn end | reflexivity].
Definition xyz := prop_z xy_model ax_model z_model.
Definition xyz' := prop_z xy_model' ax_model' z_model'.
Example C93_case :
  inf_rel (renaming ZL prefixed) xyz xyz' /\ called (renaming ZL prefixed) [] /\
  exists ds o s1, path (run (L := ZL) xyz VNone [] (st0 ZL)) ds (Ok o, s1) /\ map snd ds = [zten 2; zten 5; zten 6] /\
    map fst (out_trace o) = ["x"; "y"]%string /\ out_lw o = (true, 8, 0)%Z /\
    exists ds' o' s1', path (run (L := ZL) xyz' VNone [] (st0 ZL)) ds' (Ok o', s1') /\ map snd ds' = map snd ds /\
      map fst (out_trace o') = ["model/x"; "model/y"]%string /\ out_lw o' = (true, 8, 0)%Z.
Proof.
  assert (H1 : inf_rel (renaming ZL prefixed) xyz xyz').
  { apply ir_propose; [apply ir_prog|apply ir_compose; [apply ir_prog|apply ir_prog|apply opts0_rel]|apply opts0_rel|exact I];
      intros; unfold xy_model, xy_model', ax_model, ax_model', z_model, z_model'.
    - change "model/x"%string with (prefixed "x"). change "model/y"%string with (prefixed "y"). rels.
    - change "model/z"%string with (prefixed "z"). rels.
    - change "model/a"%string with (prefixed "a"). change "model/x"%string with (prefixed "x"). rels. }
  assert (H2 : called (renaming ZL prefixed) []) by (split; [constructor|cbn; auto]).
  split; [exact H1|]. split; [exact H2|].
  destruct (drawn_by (run (L := ZL) xyz VNone []) (st0 ZL) [zten 2; zten 5; zten 6] (fun _ o => (map fst (out_trace o), out_lw o)) (["x"; "y"]%string, (true, 8, 0)%Z)) as (ds & o & s1 & Hp & Eds & Eo).
  { vm_compute. reflexivity. }
  pose proof (f_equal fst Eo) as E1. pose proof (f_equal snd Eo) as E2. cbn [fst snd] in E1, E2. exists ds, o, s1.
  split; [exact Hp|]. split; [exact Eds|]. split; [exact E1|]. split; [exact E2|].
  destruct (C93_rename ZL ZL_laws prefixed _ _ VNone VNone [] [] _ _ _ _ _ prefixed_inj H1 H2 (vr_none _) (Forall2_nil _) (st0_rel _) Hp) as (ds' & o' & s1' & Hp' & Ed & _ & Ew & _ & Et & _).
  exists ds', o', s1'. split; [exact Hp'|]. split; [exact Ed|]. split; [|rewrite Ew; exact E2].
  apply (f_equal (map fst)) in Et. rewrite !map_map in Et. transitivity (map prefixed (map fst (out_trace o))); [rewrite map_map; exact Et|rewrite E1; reflexivity].
Qed.

(** ** Particles *)
Lemma particle_respected {LV LS : lib} (HL : lib_laws LV) (M : measures LS) (W : array_view LV) N B (P : population LV LS) s b :
  population_laws W N B P M -> s < N -> b < B -> (forall x, log_weights W N B x -> eq_zero LV x <> Ok true) ->
  respected (seen_by_particle W N B P s b).
Proof.
  intros PL Hs Hb Hr. constructor; cbn.
  - auto.
  - left. auto.
  - exact I.
  - intros x x' y y' [[-> ->]|(H1 & H2 & H3)] [[-> ->]|(H4 & H5 & H6)].
    + left. rewrite (tadd_zero LV HL). auto.
    + right. rewrite !(tadd_zero LV HL). auto.
    + right. rewrite !(tadd_comm LV HL _ (tzero LV)), !(tadd_zero LV HL). auto.
    + right. destruct (add_weights _ _ _ _ _ PL x y H1 H4) as [A EA]. destruct (add_weights _ _ _ _ _ PL x' y' H2 H5) as [A' EA'].
      split; [exact A|]. split; [exact A'|]. rewrite EA, EA' by assumption. congruence.
  - intros x x' y y' [[-> ->]|(H1 & H2 & H3)] [[-> ->]|(H4 & H5 & H6)].
    + left. rewrite (zero_zero _ _ _ _ _ PL). auto.
    + right. destruct (zero_sub _ _ _ _ _ PL y H4) as [A EA]. destruct (zero_sub _ _ _ _ _ PL y' H5) as [A' EA']. split; [exact A|]. split; [exact A'|]. rewrite EA, EA' by assumption. congruence.
    + right. destruct (sub_zero _ _ _ _ _ PL x H1) as [A EA]. destruct (sub_zero _ _ _ _ _ PL x' H2) as [A' EA']. split; [exact A|]. split; [exact A'|]. rewrite EA, EA' by assumption. congruence.
    + right. destruct (sub_weights _ _ _ _ _ PL x y H1 H4) as [A EA]. destruct (sub_weights _ _ _ _ _ PL x' y' H2 H5) as [A' EA'].
      split; [exact A|]. split; [exact A'|]. rewrite EA, EA' by assumption. congruence.
  - intros x x' H. rewrite !(no_gradient _ _ _ _ _ PL). exact H.
  - intros x x' H. rewrite !(no_gradient _ _ _ _ _ PL). exact H.
  - intros x x' [[-> ->]|(H1 & H2 & _)]; [auto|]. intros _. apply H2.
  - intros. exact I.
  - intros x x' [[-> ->]|(H1 & H2 & _)]; [auto|]. intros E. destruct (Hr _ H1 E).
  - intros sd sd' bd bd' rep x x' (-> & -> & _) H1 H2 (H3 & H4 & H5). inversion H1; inversion H2; subst. right.
    destruct (batch_sum _ _ _ _ _ PL x H3) as [A EA]. destruct (batch_sum _ _ _ _ _ PL x' H4) as [A' EA'].
    split; [exact A|]. split; [exact A'|]. rewrite EA, EA' by assumption. congruence.
  - intros d d' v v' Hd (H1 & H2 & H3). destruct (log_prob _ _ _ _ _ PL d v H1) as [A EA]. destruct (log_prob _ _ _ _ _ PL d' v' H2) as [A' EA'].
    split; [exact A|]. split; [exact A'|]. rewrite EA, EA' by assumption. congruence.
  - intros sd bd rep rep' x p (_ & _ & H) Hv. rewrite (plain_same _ _ _ H Hv). auto.
Qed.

(** C94. Without resampling, particles do not influence each other.  A program on N particles for
    each of B batch entries, whose user code treats the particles separately, is called twice, with
    arguments and draws that particle [s] of batch entry [b] cannot tell apart, whatever the
    other particles see and draw: the particle gets the same log-weight, and the same value and
    log-probability at every address. *)
Theorem C94_separate : forall (LV LS : lib) (HL : lib_laws LV) (M : measures LS) (W : array_view LV) N B (P : population LV LS)
    (PL : population_laws W N B P M) s b t c c' kws kws' st st' ds o st1 vs,
  let K := seen_by_particle W N B P s b in
  s < N -> b < B -> (forall x, log_weights W N B x -> eq_zero LV x <> Ok true) ->
  inf_rel K t t -> called K kws -> val_rel K c c' -> kw_rel K kws kws' -> st_rel K st st' ->
  path (run t c kws st) ds (Ok o, st1) ->
  Forall2 (fun dv v' => match fst dv with
     | DrawDist _ _ _ => particles W N B (snd dv) /\ particles W N B v' /\ part P s b (snd dv) = part P s b v'
     | DrawRand => False end) ds vs ->
  exists ds' o' st1', path (run t c' kws' st') ds' (Ok o', st1') /\ map snd ds' = vs /\
    ((out_lw o = tzero LV /\ out_lw o' = tzero LV) \/ (log_weights W N B (out_lw o) /\ log_weights W N B (out_lw o') /\ entry W s b (out_lw o') = entry W s b (out_lw o))) /\
    map (fun kr => (fst kr, part P s b (rv_value (snd kr)), part P s b (rv_logp (snd kr)))) (out_trace o') =
    map (fun kr => (fst kr, part P s b (rv_value (snd kr)), part P s b (rv_logp (snd kr)))) (out_trace o) /\
    out_rel K o o' /\ st_rel K st1 st1'.
Proof.
  intros LV LS HL M W N B P PL s b t c c' kws kws' st st' ds o st1 vs K Hs Hb Hr Ht HC Hc Hk Hst Hp Hv.
  destruct (C93_natural LV LV K t t c c' kws kws' st st' ds o st1 vs) as (ds' & o' & st1' & Hp' & E & _ & Ho & Hs1); try assumption.
  - eapply particle_respected; eassumption.
  - apply (order_perm LV HL).
  - apply (order_perm LV HL).
  - left. exact HL.
  - exists ds', o', st1'. split; [exact Hp'|]. split; [exact E|]. split; [|split; [|split; [exact Ho|exact Hs1]]].
    + destruct Ho as [? ? w w' ? ? ? ? ? ? ? ? ? ? ? ? ? _ Hw _ _ _ _ _ _]. cbn [out_lw]. destruct Hw as [H|(H1 & H2 & H3)]; [left; exact H|right; auto].
    + destruct Ho as [tr tr' ? ? ? ? ? ? ? ? ? ? ? ? ? ? ? Htr _ _ _ _ _ _ _]. cbn [out_trace]. clear -Htr.
      induction Htr as [|[a r] [a' r'] tr tr' [E H] Htr IH]; cbn; [reflexivity|]. rewrite IH. cbn in E. subst a'.
      destruct H as [_ (_ & _ & H1) (_ & _ & H2) _ _ _]. cbn in *. rewrite H1, H2. reflexivity.
Qed.
Print Assumptions C94_separate.

(** The first level of the sampler of C59: two particles, x proposed with an auxiliary w and weighted. *)
Lemma xV_rel s c c' : s < 2 -> val_rel (seen_by_particle PopV 2 1 PopP s 0) c c' -> part PopP s 0 (xV c) = part PopP s 0 (xV c').
Proof.
  intros Hs H. destruct H as [ | | | | |l l' H|d d' H| ]; try reflexivity. cbn [xV].
  induction H as [|[a x] [a' x'] d d' [E Hx] H IH]; cbn [dget]; [reflexivity|]. cbn in E, Hx. subst a'. destruct (String.eqb "x" a); [|exact IH].
  destruct Hx as [ | | | |y y' (_ & _ & Hy)| | | ]; try reflexivity. exact Hy.
Qed.
Lemma firstV_rel s : s < 2 -> inf_rel (seen_by_particle PopV 2 1 PopP s 0) firstV firstV.
Proof.
  intros Hs.
  assert (Ho : opts_rel (seen_by_particle PopV 2 1 PopP s 0) optsV optsV) by (constructor; [intros; apply res_rel_ok; exact I|exact I|constructor|reflexivity]).
  apply ir_propose; [apply ir_prog|apply ir_compose; [apply ir_prog|apply ir_prog|exact Ho]|exact Ho|exact I]; intros c c' kws kws' Hc Hk; unfold sampleV, auxV;
    (change (MVar (L := PopL) ?a) with (MVar (L := PopL) (ren (seen_by_particle PopV 2 1 PopP s 0) a)) at 2; eapply mr_var; [|exact I|]).
  all: try (intros v v' Hv; apply mr_ret, vr_dict; constructor; [split; [reflexivity|apply vr_tensor, Hv]|constructor]).
  - reflexivity.
  - cbn. unfold coinV. f_equal. apply (xV_rel s c c' Hs Hc).
  - reflexivity.
Qed.
Example C94_case : forall s, s < 2 ->
  let K := seen_by_particle PopV 2 1 PopP s 0 in
  inf_rel K firstV firstV /\ called K dimsV /\ (forall x, log_weights PopV 2 1 x -> eq_zero PopL x <> Ok true) /\
  forall x y w v x' y' w' v', (if s =? 0 then x' = x /\ w' = w else y' = y /\ v' = v) ->
  exists ds o s1 ds' o' s1',
    path (run firstV VNone dimsV (st0 PopL)) ds (Ok o, s1) /\ map snd ds = [col2 x y; col2 w v] /\
    path (run firstV VNone dimsV (st0 PopL)) ds' (Ok o', s1') /\ map snd ds' = [col2 x' y'; col2 w' v'] /\
    entry PopV s 0 (out_lw o') = entry PopV s 0 (out_lw o).
Proof.
  intros s Hs K. pose proof (firstV_rel s Hs) as H1.
  assert (H2 : called K dimsV) by (split; [repeat constructor; cbn; intuition congruence|cbn; auto]).
  assert (H3 : forall x, log_weights PopV 2 1 x -> eq_zero PopL x <> Ok true).
  { intros x Hx. destruct Hx as [[[Ht _] _] _]. destruct x; discriminate. }
  split; [exact H1|]. split; [exact H2|]. split; [exact H3|]. intros x y w v x' y' w' v' Hd.
  destruct (drawn_by (run firstV VNone dimsV) (st0 PopL) [col2 x y; col2 w v] (fun ds _ => map (fun dv => match fst dv with DrawDist _ _ _ => true | DrawRand => false end) ds) [true; true]) as (ds & o & s1 & Hp & Ed & Ek).
  { lazy. reflexivity. }
  assert (Hk : forall a b a' b', (if s =? 0 then a' = a else b' = b) -> particles PopV 2 1 (col2 a b) /\ particles PopV 2 1 (col2 a' b') /\ part PopP s 0 (col2 a b) = part PopP s 0 (col2 a' b')).
  { intros a b a' b' H. split; [apply col2_particles|]. split; [apply col2_particles|]. destruct s as [|[|s]]; [| |lia]; cbn in H |- *; subst; reflexivity. }
  destruct (C94_separate PopL OneL PopL_laws coins PopV 2 1 PopP PopP_laws s 0 firstV VNone VNone dimsV dimsV (st0 PopL) (st0 PopL) ds o s1 [col2 x' y'; col2 w' v'])
    as (ds' & o' & s1' & Hp' & Ed' & Hw & _); try assumption; try lia.
  - constructor.
  - repeat constructor.
  - apply st0_rel.
  - destruct ds as [|[[d1 r1 h1|] v1] [|[[d2 r2 h2|] v2] [|]]]; try discriminate. cbn in Ed. injection Ed as -> ->.
    constructor; [|constructor; [|constructor]]; cbn [fst snd]; apply Hk; destruct (s =? 0); tauto.
  - exists ds, o, s1, ds', o', s1'. split; [exact Hp|]. split; [exact Ed|]. split; [exact Hp'|]. split; [exact Ed'|].
    destruct Hw as [[-> ->]|(_ & _ & H)]; [reflexivity|exact H].
Qed.

(** ** One particle alone *)
Lemma alone_respected {LV LS : lib} (HL : lib_laws LV) (M : measures LS) (ML : measure_laws M) (W : array_view LV) N B (P : population LV LS) s b :
  population_laws W N B P M -> single_laws LV LS -> s < N -> b < B -> (forall x, log_weights W N B x -> eq_zero LV x <> Ok true) ->
  respected (particle_alone W N B P M s b).
Proof.
  intros PL SL Hs Hb Hr. destruct SL as [[Z1 Z2] SA SB SE SJ]. pose proof (lw_zero M ML) as LZ. constructor; cbn.
  - auto.
  - left. auto.
  - exact I.
  - intros x x' y y' [[-> ->]|(H1 & H2 & H3)] [[-> ->]|(H4 & H5 & H6)].
    + left. rewrite (tadd_zero LV HL), Z1. auto.
    + right. rewrite (tadd_zero LV HL), (lw_add M ML), LZ, Rplus_0_l. split; [auto|]. split; [apply SA; auto|auto].
    + right. rewrite (tadd_comm LV HL _ (tzero LV)), (tadd_zero LV HL), (lw_add M ML), LZ, Rplus_0_r. split; [auto|]. split; [apply SA; auto|auto].
    + right. destruct (add_weights _ _ _ _ _ PL x y H1 H4) as [A EA]. split; [exact A|]. split; [apply SA; auto|]. rewrite EA, (lw_add M ML) by assumption. congruence.
  - intros x x' y y' [[-> ->]|(H1 & H2 & H3)] [[-> ->]|(H4 & H5 & H6)].
    + left. rewrite (zero_zero _ _ _ _ _ PL), Z2. auto.
    + right. destruct (zero_sub _ _ _ _ _ PL y H4) as [A EA]. split; [exact A|]. split; [apply SA; auto|]. rewrite EA, (lw_sub M ML), LZ by assumption. rewrite H6. lra.
    + right. destruct (sub_zero _ _ _ _ _ PL x H1) as [A EA]. split; [exact A|]. split; [apply SA; auto|]. rewrite EA, (lw_sub M ML), LZ by assumption. rewrite H3. lra.
    + right. destruct (sub_weights _ _ _ _ _ PL x y H1 H4) as [A EA]. split; [exact A|]. split; [apply SA; auto|]. rewrite EA, (lw_sub M ML) by assumption. congruence.
  - intros x x' [H ->]. rewrite (no_gradient _ _ _ _ _ PL), (detach_id M ML). auto.
  - intros x x' H. rewrite (no_gradient _ _ _ _ _ PL), (detach_id M ML). exact H.
  - intros x x' [[-> ->]|(H1 & H2 & _)]; [|auto]. rewrite (float_zero _ _ _ _ _ PL). discriminate.
  - intros. exact I.
  - intros x x' [[-> ->]|(H1 & H2 & _)]; [auto|]. intros E. destruct (Hr _ H1 E).
  - intros sd sd' bd bd' rep x x' (-> & -> & _) H1 H2 (H3 & ->). right.
    destruct (batch_sum _ _ _ _ _ PL x H3) as [A EA]. split; [exact A|]. split; [apply SB|]. rewrite EA, (lw_bsum M ML) by assumption. reflexivity.
  - intros d d' v v' -> [H1 ->]. destruct (log_prob _ _ _ _ _ PL d v H1) as [A EA]. split; [exact A|]. rewrite EA by assumption. reflexivity.
  - intros sd bd rep rep' x p (_ & _ & r & ->) Hv. inversion Hv; subst. apply SJ.
Qed.

(** C96. Vectorised programs compute, for every particle, what the program of a single particle
    computes.  [t] runs on N particles for each of B batch entries, [t1] on one; the user code of
    [t] does for particle [s] of batch entry [b] what that of [t1] does, and nothing is resampled.  Whatever [t] draws
    and returns, [t1] on the particle's share of the draws returns a result with the particle's
    log-weight, and at every address with its value and log-probability; and it draws from the distributions the particle used. *)
Theorem C96_vectorised : forall (LV LS : lib) (HL : lib_laws LV) (M : measures LS) (ML : measure_laws M) (W : array_view LV) N B (P : population LV LS)
    (PL : population_laws W N B P M) (SL : single_laws LV LS) s b t t1 c c1 kws kws1 st st1 ds o st',
  let K := particle_alone W N B P M s b in
  (forall l, Permutation (order LS l) l) -> s < N -> b < B -> (forall x, log_weights W N B x -> eq_zero LV x <> Ok true) ->
  inf_rel K t t1 -> called K kws -> val_rel K c c1 -> kw_rel K kws kws1 -> st_rel K st st1 ->
  path (run t c kws st) ds (Ok o, st') ->
  (forall k v, In (k, v) ds -> (exists d rep sh, k = DrawDist d rep sh) /\ particles W N B v) ->
  exists ds1 o1 st1', path (run t1 c1 kws1 st1) ds1 (Ok o1, st1') /\
    map snd ds1 = map (fun kv => part P s b (snd kv)) ds /\
    Forall2 (fun kv kv1 => forall d rep sh, fst kv = DrawDist d rep sh -> exists sh1, fst kv1 = DrawDist (dpart P s b d) rep sh1) ds ds1 /\
    (out_lw o = tzero LV /\ out_lw o1 = tzero LS \/ log_weights W N B (out_lw o) /\ lw M (out_lw o1) = entry W s b (out_lw o)) /\
    map (fun kr => (fst kr, rv_value (snd kr), rv_logp (snd kr), rv_prov (snd kr))) (out_trace o1) =
    map (fun kr => (fst kr, part P s b (rv_value (snd kr)), part P s b (rv_logp (snd kr)), rv_prov (snd kr))) (out_trace o) /\
    val_rel K (out_output o) (out_output o1).
Proof.
  intros LV LS HL M ML W N B P PL SL s b t t1 c c1 kws kws1 st st1 ds o st' K OL Hs Hb Hr Ht HC Hc Hk Hst Hp Hv.
  destruct (C93_natural LV LS K t t1 c c1 kws kws1 st st1 ds o st' (map (fun kv => part P s b (snd kv)) ds)) as (ds' & o' & st1' & Hp' & E & Hkd & Ho & Hs1); try assumption.
  - eapply alone_respected; eassumption.
  - apply (order_perm LV HL).
  - left. exact HL.
  - clear -Hv. induction ds as [|[k v] ds IH]; constructor; [|apply IH; intros; apply Hv; right; assumption].
    destruct (Hv k v (or_introl eq_refl)) as [(d & rep & sh & ->) Hp]. split; [exact Hp|reflexivity].
  - exists ds', o', st1'. split; [exact Hp'|]. split; [exact E|]. split; [|split; [|split]].
    + clear -Hkd. eapply Forall2_weaken; [|exact Hkd]. intros [k v] [k1 v1] H d rep sh Ek. cbn in *. subst k. destruct k1 as [d1 rep1 sh1|]; [|destruct H].
      destruct H as (-> & -> & _). eexists. reflexivity.
    + destruct Ho as [? ? w w' ? ? ? ? ? ? ? ? ? ? ? ? ? _ Hw _ _ _ _ _ _]. cbn [out_lw]. destruct Hw as [H|(H1 & H2 & H3)]; [left; exact H|right; auto].
    + destruct Ho as [tr tr' ? ? ? ? ? ? ? ? ? ? ? ? ? ? ? Htr _ _ _ _ _ _ _]. cbn [out_trace]. clear -Htr.
      induction Htr as [|[a r] [a' r'] tr tr' [E H] Htr IH]; cbn; [reflexivity|]. rewrite IH. cbn in E. subst a'.
      destruct H as [_ (_ & H1) (_ & H2) H3 _ _]. cbn in *. rewrite H1, H2, H3. reflexivity.
    + destruct Ho. assumption.
Qed.
Print Assumptions C96_vectorised.

Definition first1 : inf OneL := IPropose (L := OneL) 5 (IProg (L := OneL) 6 sig_model (sample1 true))
  (ICompose (L := OneL) 9 (IProg (L := OneL) 8 sig_model aux1) (IProg (L := OneL) 7 sig_model (sample1 false)) opts1) opts1 None false.
Definition dims1 : dict (pyval (list R)) := [("sample_dims", VInt 0); ("batch_dim", VInt 1)].
Lemma xV_alone s c c1 : s < 2 -> val_rel (particle_alone PopV 2 1 PopP coins s 0) c c1 -> x1 c1 = part PopP s 0 (xV c).
Proof.
  intros Hs H. assert (E0 : [0%R] = part PopP s 0 (col2 0 0)) by (destruct s as [|[|s]]; [reflexivity|reflexivity|lia]).
  destruct H as [ | | | | |l l' H|d d' H| ]; try exact E0. cbn [xV x1].
  induction H as [|[a x] [a' x'] d d' [E Hx] H IH]; cbn [dget]; [exact E0|]. cbn in E, Hx. subst a'. destruct (String.eqb "x" a); [|exact IH].
  destruct Hx as [ | | | |y y' (_ & Hy)| | | ]; try exact E0. exact Hy.
Qed.
Lemma first_alone s : s < 2 -> inf_rel (particle_alone PopV 2 1 PopP coins s 0) firstV first1.
Proof.
  intros Hs.
  assert (Ho : opts_rel (particle_alone PopV 2 1 PopP coins s 0) optsV opts1) by (constructor; [intros; apply res_rel_ok; exact I|exact I|constructor|reflexivity]).
  apply ir_propose; [apply ir_prog|apply ir_compose; [apply ir_prog|apply ir_prog|exact Ho]|exact Ho|exact I]; intros c c' kws kws' Hc Hk; unfold sampleV, auxV, sample1, aux1;
    (change (MVar (L := OneL) ?a) with (MVar (L := OneL) (ren (particle_alone PopV 2 1 PopP coins s 0) a)); eapply mr_var; [|exact I|]).
  all: try (intros v v' Hv; apply mr_ret, vr_dict; constructor; [split; [reflexivity|apply vr_tensor, Hv]|constructor]).
  - reflexivity.
  - cbn. rewrite (xV_alone s c c' Hs Hc). reflexivity.
  - reflexivity.
Qed.
Lemma One_single : single_laws PopL OneL.
Proof. constructor; cbn; auto. Qed.
Example C96_case : forall s, s < 2 ->
  let K := particle_alone PopV 2 1 PopP coins s 0 in
  single_laws PopL OneL /\ inf_rel K firstV first1 /\ called K dimsV /\ kw_rel K dimsV dims1 /\ (forall x, log_weights PopV 2 1 x -> eq_zero PopL x <> Ok true) /\
  forall x y w v, exists ds o s1 ds1 o1 s1',
    path (run firstV VNone dimsV (st0 PopL)) ds (Ok o, s1) /\ map snd ds = [col2 x y; col2 w v] /\
    path (run first1 VNone dims1 (st0 OneL)) ds1 (Ok o1, s1') /\ map snd ds1 = (if s =? 0 then [[x]; [w]] else [[y]; [v]]) /\
    rsum (out_lw o1) = entry PopV s 0 (out_lw o).
Proof.
  intros s Hs K. pose proof (first_alone s Hs) as H1.
  assert (H2 : called K dimsV) by (split; [repeat constructor; cbn; intuition congruence|cbn; eauto]).
  assert (H3 : forall x, log_weights PopV 2 1 x -> eq_zero PopL x <> Ok true).
  { intros x Hx. destruct Hx as [[[Ht _] _] _]. destruct x; discriminate. }
  assert (H4 : kw_rel K dimsV dims1) by (constructor; [split; [reflexivity|constructor]|constructor; [split; [reflexivity|constructor]|constructor]]).
  split; [exact One_single|]. split; [exact H1|]. split; [exact H2|]. split; [exact H4|]. split; [exact H3|]. intros x y w v.
  destruct (drawn_by (run firstV VNone dimsV) (st0 PopL) [col2 x y; col2 w v] (fun ds o => (match out_lw o with Flt _ => false | _ => true end, map (fun dv => match fst dv with DrawDist _ _ _ => true | DrawRand => false end) ds)) (true, [true; true])) as (ds & o & s1 & Hp & Ed & Ek).
  { lazy. reflexivity. }
  destruct (C96_vectorised PopL OneL PopL_laws coins coins_laws PopV 2 1 PopP PopP_laws One_single s 0 firstV first1 VNone VNone dimsV dims1 (st0 PopL) (st0 OneL) ds o s1)
    as (ds1 & o1 & s1' & Hp1 & E1 & _ & Hw & _); try assumption; try lia.
  - intros l. apply Permutation_refl.
  - constructor.
  - apply st0_rel.
  - destruct ds as [|[[d1 r1 h1|] v1] [|[[d2 r2 h2|] v2] [|]]]; try discriminate. cbn in Ed. injection Ed as -> ->.
    intros k u [[= <- <-]|[[= <- <-]|[]]]; (split; [repeat eexists|apply col2_particles]).
  - exists ds, o, s1, ds1, o1, s1'. split; [exact Hp|]. split; [exact Ed|]. split; [exact Hp1|]. split.
    + rewrite E1. rewrite <- (map_map snd (part PopP s 0)), Ed. destruct s as [|[|s]]; [reflexivity|reflexivity|lia].
    + destruct Hw as [[H _]|[_ H]]; [rewrite H in Ek; discriminate|exact H].
Qed.

(** ** A population chosen from another *)
Lemma chosen_respected {LV LS : lib} (HL : lib_laws LV) (M : measures LS) (W : array_view LV) N B (P : population LV LS) N' B' (P' : population LV LS) from :
  population_laws W N B P M -> population_laws W N' B' P' M ->
  (forall s' b', s' < N' -> b' < B' -> fst (from s' b') < N /\ snd (from s' b') < B) ->
  (forall x, log_weights W N B x -> eq_zero LV x <> Ok true) ->
  respected (chosen_from W N B P N' B' P' from).
Proof.
  intros PL PL' HF Hr. constructor; cbn.
  - auto.
  - left. auto.
  - exact I.
  - intros x x' y y' [[-> ->]|(H1 & H2 & H3)] [[-> ->]|(H4 & H5 & H6)].
    + left. rewrite (tadd_zero LV HL). auto.
    + right. rewrite !(tadd_zero LV HL). auto.
    + right. rewrite !(tadd_comm LV HL _ (tzero LV)), !(tadd_zero LV HL). auto.
    + right. destruct (add_weights _ _ _ _ _ PL x y H1 H4) as [A EA]. destruct (add_weights _ _ _ _ _ PL' x' y' H2 H5) as [A' EA'].
      split; [exact A|]. split; [exact A'|]. intros s b Hs Hb. destruct (HF s b Hs Hb). rewrite EA, EA' by assumption. rewrite H3, H6 by assumption. reflexivity.
  - intros x x' y y' [[-> ->]|(H1 & H2 & H3)] [[-> ->]|(H4 & H5 & H6)].
    + left. rewrite (zero_zero _ _ _ _ _ PL). auto.
    + right. destruct (zero_sub _ _ _ _ _ PL y H4) as [A EA]. destruct (zero_sub _ _ _ _ _ PL' y' H5) as [A' EA']. split; [exact A|]. split; [exact A'|].
      intros s b Hs Hb. destruct (HF s b Hs Hb). rewrite EA, EA' by assumption. rewrite H6 by assumption. reflexivity.
    + right. destruct (sub_zero _ _ _ _ _ PL x H1) as [A EA]. destruct (sub_zero _ _ _ _ _ PL' x' H2) as [A' EA']. split; [exact A|]. split; [exact A'|].
      intros s b Hs Hb. destruct (HF s b Hs Hb). rewrite EA, EA' by assumption. rewrite H3 by assumption. reflexivity.
    + right. destruct (sub_weights _ _ _ _ _ PL x y H1 H4) as [A EA]. destruct (sub_weights _ _ _ _ _ PL' x' y' H2 H5) as [A' EA'].
      split; [exact A|]. split; [exact A'|]. intros s b Hs Hb. destruct (HF s b Hs Hb). rewrite EA, EA' by assumption. rewrite H3, H6 by assumption. reflexivity.
  - intros x x' H. rewrite !(no_gradient _ _ _ _ _ PL). exact H.
  - intros x x' H. rewrite !(no_gradient _ _ _ _ _ PL). exact H.
  - intros x x' [[-> ->]|(H1 & H2 & _)]; [auto|]. intros _. apply H2.
  - intros. exact I.
  - intros x x' [[-> ->]|(H1 & H2 & _)]; [auto|]. intros E. destruct (Hr _ H1 E).
  - intros sd sd' bd bd' rep x x' (-> & -> & _) H1 H2 (H3 & H4 & H5). inversion H1; inversion H2; subst. right.
    destruct (batch_sum _ _ _ _ _ PL x H3) as [A EA]. destruct (batch_sum _ _ _ _ _ PL' x' H4) as [A' EA'].
    split; [exact A|]. split; [exact A'|]. intros s b Hs Hb. destruct (HF s b Hs Hb). rewrite EA, EA' by assumption. rewrite H5 by assumption. reflexivity.
  - intros d d' v v' Hd (H1 & H2 & H3). destruct (log_prob _ _ _ _ _ PL d v H1) as [A EA]. destruct (log_prob _ _ _ _ _ PL' d' v' H2) as [A' EA'].
    split; [exact A|]. split; [exact A'|]. intros s b Hs Hb. destruct (HF s b Hs Hb). rewrite EA, EA' by assumption. rewrite Hd, H3 by assumption. reflexivity.
  - intros sd bd rep rep' x p (_ & _ & H) Hv. rewrite (plain_same _ _ _ H Hv). auto.
Qed.

(** C97. The numbering and the number of particles carry no meaning.  From a population of N
    particles for each of B batch entries another one is chosen: N' particles for each of B' batch
    entries, [from] telling which particle of the first each is (a permutation, a part of the
    population, copies of some particles).  A program whose user code treats
    the particles alike (its resamplers too: no Resample step, unless whole batch entries are chosen, C98), run on the arguments and draws of the chosen particles, returns for each of
    them what it returned for the particle it was chosen from. *)
Theorem C97_chosen : forall (LV LS : lib) (HL : lib_laws LV) (M : measures LS) (W : array_view LV) N B (P : population LV LS) N' B' (P' : population LV LS)
    (PL : population_laws W N B P M) (PL' : population_laws W N' B' P' M) from t t' c c' kws kws' st st' ds o st1 vs,
  let K := chosen_from W N B P N' B' P' from in
  (forall s' b', s' < N' -> b' < B' -> fst (from s' b') < N /\ snd (from s' b') < B) ->
  (forall x, log_weights W N B x -> eq_zero LV x <> Ok true) ->
  inf_rel K t t' -> called K kws -> val_rel K c c' -> kw_rel K kws kws' -> st_rel K st st' ->
  path (run t c kws st) ds (Ok o, st1) ->
  Forall2 (fun dv v' => match fst dv with
     | DrawDist _ _ _ => particles W N B (snd dv) /\ particles W N' B' v' /\
         forall s' b', s' < N' -> b' < B' -> part P' s' b' v' = part P (fst (from s' b')) (snd (from s' b')) (snd dv)
     | DrawRand => drawn W N B DrawRand (snd dv) /\ drawn W N' B' DrawRand v' /\
         forall s' b', s' < N' -> b' < B' -> offset W b' v' = offset W (snd (from s' b')) (snd dv) end) ds vs ->
  exists ds' o' st1', path (run t' c' kws' st') ds' (Ok o', st1') /\ map snd ds' = vs /\
    map fst (out_trace o') = map fst (out_trace o) /\ val_rel K (out_output o) (out_output o') /\
    ((out_lw o = tzero LV /\ out_lw o' = tzero LV) \/ (log_weights W N B (out_lw o) /\ log_weights W N' B' (out_lw o'))) /\
    forall s' b', s' < N' -> b' < B' ->
      let s := fst (from s' b') in let b := snd (from s' b') in
      (out_lw o = tzero LV \/ entry W s' b' (out_lw o') = entry W s b (out_lw o)) /\
      map (fun kr => (part P' s' b' (rv_value (snd kr)), part P' s' b' (rv_logp (snd kr)))) (out_trace o') =
      map (fun kr => (part P s b (rv_value (snd kr)), part P s b (rv_logp (snd kr)))) (out_trace o).
Proof.
  intros LV LS HL M W N B P N' B' P' PL PL' from t t' c c' kws kws' st st' ds o st1 vs K HF Hr Ht HC Hc Hk Hst Hp Hv.
  destruct (C93_natural LV LV K t t' c c' kws kws' st st' ds o st1 vs) as (ds' & o' & st1' & Hp' & E & _ & Ho & Hs1); try assumption.
  - eapply chosen_respected; eassumption.
  - apply (order_perm LV HL).
  - apply (order_perm LV HL).
  - left. exact HL.
  - exists ds', o', st1'. split; [exact Hp'|]. split; [exact E|].
    destruct Ho as [tr tr' w w' ? ? ? ? ? ? ? ? ? ? ? ? ? Htr Hw Hout _ _ _ _ _]. cbn [out_lw out_trace out_output].
    split; [|split; [exact Hout|split]].
    + clear -Htr. induction Htr as [|[a r] [a' r'] tr tr' [E H] Htr IH]; cbn in *; congruence.
    + destruct Hw as [H|(H1 & H2 & H3)]; auto.
    + intros s' b' Hs Hb. cbn zeta. split.
      * destruct Hw as [[H _]|(H1 & H2 & H3)]; [left; exact H|right; apply H3; assumption].
      * clear -Htr Hs Hb. induction Htr as [|[a r] [a' r'] tr tr' [E H] Htr IH]; cbn; [reflexivity|]. rewrite IH.
        destruct H as [_ (_ & _ & H1) (_ & _ & H2) _ _ _]. cbn in *. rewrite H1, H2 by assumption. reflexivity.
Qed.
Print Assumptions C97_chosen.

Definition pick2 (k : nat) (x y : R) : R := if k =? 0 then x else y.
Lemma part_pick2 x y s : part PopP s 0 (col2 x y) = [pick2 s x y].
Proof. reflexivity. Qed.
Lemma xV_chosen (f : nat -> nat) c c' s : s < 2 -> val_rel (chosen_from PopV 2 1 PopP 2 1 PopP (fun s b => (f s, b))) c c' -> part PopP s 0 (xV c') = part PopP (f s) 0 (xV c).
Proof.
  intros Hs H. assert (E0 : part PopP s 0 (col2 0 0) = part PopP (f s) 0 (col2 0 0)) by (rewrite !part_pick2; unfold pick2; destruct (s =? 0), (f s =? 0); reflexivity).
  destruct H as [ | | | | |l l' H|d d' H| ]; try exact E0. cbn [xV].
  induction H as [|[a x] [a' x'] d d' [E Hx] H IH]; cbn [dget]; [exact E0|]. cbn in E, Hx. subst a'. destruct (String.eqb "x" a); [|exact IH].
  destruct Hx as [ | | | |y y' (_ & _ & Hy)| | | ]; try exact E0. apply (Hy s 0); lia.
Qed.
Lemma firstV_chosen f : inf_rel (chosen_from PopV 2 1 PopP 2 1 PopP (fun s b => (f s, b))) firstV firstV.
Proof.
  set (K := chosen_from _ _ _ _ _ _ _ _).
  assert (Ho : opts_rel K optsV optsV) by (constructor; [intros; apply res_rel_ok; exact I|exact I|constructor|reflexivity]).
  apply ir_propose; [apply ir_prog|apply ir_compose; [apply ir_prog|apply ir_prog|exact Ho]|exact Ho|exact I]; intros c c' kws kws' Hc Hk; unfold sampleV, auxV;
    (change (MVar (L := PopL) ?a) with (MVar (L := PopL) (ren K a)) at 2; eapply mr_var; [|exact I|]).
  all: try (intros v v' Hv; apply mr_ret, vr_dict; constructor; [split; [reflexivity|apply vr_tensor, Hv]|constructor]).
  - intros s b Hs Hb. reflexivity.
  - intros s b Hs Hb. cbn [dpart PopP fst snd]. assert (b = 0) as -> by lia. unfold coinV. f_equal. apply (xV_chosen f c c' s Hs Hc).
  - intros s b Hs Hb. reflexivity.
Qed.
(** the two particles swapped, or one of them twice *)
Example C97_case : forall f, f 0 < 2 -> f 1 < 2 ->
  let K := chosen_from PopV 2 1 PopP 2 1 PopP (fun s b => (f s, b)) in
  inf_rel K firstV firstV /\ called K dimsV /\
  forall x y w v, exists ds o s1 ds' o' s1',
    path (run firstV VNone dimsV (st0 PopL)) ds (Ok o, s1) /\ map snd ds = [col2 x y; col2 w v] /\
    path (run firstV VNone dimsV (st0 PopL)) ds' (Ok o', s1') /\ map snd ds' = [col2 (pick2 (f 0) x y) (pick2 (f 1) x y); col2 (pick2 (f 0) w v) (pick2 (f 1) w v)] /\
    entry PopV 0 0 (out_lw o') = entry PopV (f 0) 0 (out_lw o) /\ entry PopV 1 0 (out_lw o') = entry PopV (f 1) 0 (out_lw o).
Proof.
  intros f F0 F1 K. pose proof (firstV_chosen f) as H1.
  assert (H2 : called K dimsV) by (split; [repeat constructor; cbn; intuition congruence|cbn; auto]).
  split; [exact H1|]. split; [exact H2|]. intros x y w v.
  destruct (drawn_by (run firstV VNone dimsV) (st0 PopL) [col2 x y; col2 w v] (fun ds o => (match out_lw o with Flt _ => false | _ => true end, map (fun dv => match fst dv with DrawDist _ _ _ => true | DrawRand => false end) ds)) (true, [true; true])) as (ds & o & s1 & Hp & Ed & Ek).
  { lazy. reflexivity. }
  destruct (C97_chosen PopL OneL PopL_laws coins PopV 2 1 PopP 2 1 PopP PopP_laws PopP_laws (fun s b => (f s, b)) firstV firstV VNone VNone dimsV dimsV (st0 PopL) (st0 PopL) ds o s1
      [col2 (pick2 (f 0) x y) (pick2 (f 1) x y); col2 (pick2 (f 0) w v) (pick2 (f 1) w v)]) as (ds' & o' & s1' & Hp' & Ed' & _ & _ & _ & Hw); try assumption.
  - intros s b Hs Hb. cbn [fst snd]. split; [|exact Hb]. destruct s as [|[|s]]; [exact F0|exact F1|lia].
  - intros u Hu. destruct Hu as [[[Ht _] _] _]. destruct u; discriminate.
  - constructor.
  - repeat constructor.
  - apply st0_rel.
  - destruct ds as [|[[d1 r1 h1|] v1] [|[[d2 r2 h2|] v2] [|]]]; try discriminate. cbn in Ed. injection Ed as -> ->.
    constructor; [|constructor; [|constructor]]; cbn [fst snd]; (split; [apply col2_particles|split; [apply col2_particles|]]);
      intros s b Hs Hb; assert (b = 0) as -> by lia; rewrite !part_pick2; destruct s as [|[|s]]; [reflexivity|reflexivity|lia|reflexivity|reflexivity|lia].
  - exists ds, o, s1, ds', o', s1'. split; [exact Hp|]. split; [exact Ed|]. split; [exact Hp'|]. split; [exact Ed'|].
    assert (Hn : out_lw o <> tzero PopL) by (intros H; rewrite H in Ek; discriminate).
    split; [destruct (proj1 (Hw 0 0 ltac:(lia) ltac:(lia))) as [H|H]|destruct (proj1 (Hw 1 0 ltac:(lia) ltac:(lia))) as [H|H]]; try (destruct (Hn H)); exact H.
Qed.

(** ** Gradients *)
Lemma numbers_respected L : value_laws L -> respected (same_numbers L).
Proof.
  intros V. constructor; cbn; try reflexivity.
  - auto.
  - intros. rewrite !(vl_add L V). congruence.
  - intros. rewrite !(vl_sub L V). congruence.
  - intros. congruence.
  - intros. congruence.
  - intros x x' H. rewrite <- (vl_tensor L V x), <- (vl_tensor L V x'), H. auto.
  - intros x x' H. rewrite <- (vl_tensor L V x), <- (vl_tensor L V x'), <- H. destruct (is_tensor L (detach L x)); [congruence|]. rewrite !(vl_to_tensor L V). congruence.
  - intros x x' H. rewrite <- (vl_zero L V x), <- (vl_zero L V x'), H. auto.
  - intros sd sd' bd bd' rep x x' (H1 & H2 & _) Hs Hb H. rewrite (plain_same _ _ _ H1 Hs), (plain_same _ _ _ H2 Hb), !(vl_bsum L V). congruence.
  - intros d d' v v' Hd Hv. apply Hd, Hv.
  - intros sd bd rep rep' b p (_ & _ & H) Hr. rewrite (plain_same _ _ _ H Hr). auto.
Qed.

(** C95. Gradients do not influence numbers.  Two programs whose user code computes the same numbers,
    with different gradients (parameters frozen, values detached), give on draws with the same numbers
    log-weights, losses, values and log-probabilities with the same numbers. *)
Theorem C95_numbers : forall (L : lib) (HL : lib_laws L) (V : value_laws L) t t' c c' kws kws' s s' ds o s1 vs,
  let K := same_numbers L in
  inf_rel K t t' -> called K kws -> val_rel K c c' -> kw_rel K kws kws' -> st_rel K s s' ->
  path (run t c kws s) ds (Ok o, s1) -> Forall2 (fun dv v' => detach L (snd dv) = detach L v') ds vs ->
  exists ds' o' s1', path (run t' c' kws' s') ds' (Ok o', s1') /\ map snd ds' = vs /\
    detach L (out_lw o') = detach L (out_lw o) /\ option_map (detach L) (out_loss o') = option_map (detach L) (out_loss o) /\
    map (fun kr => (fst kr, detach L (rv_value (snd kr)), detach L (rv_logp (snd kr)))) (out_trace o') =
    map (fun kr => (fst kr, detach L (rv_value (snd kr)), detach L (rv_logp (snd kr)))) (out_trace o) /\
    out_rel K o o' /\ st_rel K s1 s1'.
Proof.
  intros L HL V t t' c c' kws kws' s s' ds o s1 vs K Ht HC Hc Hk Hs Hp Hv.
  destruct (C93_natural L L K t t' c c' kws kws' s s' ds o s1 vs) as (ds' & o' & s1' & Hp' & E & _ & Ho & Hs1); try assumption.
  - apply numbers_respected, V.
  - apply (order_perm L HL).
  - apply (order_perm L HL).
  - left. exact HL.
  - eapply Forall2_weaken; [|exact Hv]. intros [d v] v' H. destruct d; exact H.
  - exists ds', o', s1'. split; [exact Hp'|]. split; [exact E|].
    assert (Hw : detach L (out_lw o') = detach L (out_lw o)) by (destruct Ho as [? ? w w' ? ? ? ? ? ? ? ? ? ? ? ? ? _ Hw _ _ _ _ _ _]; symmetry; exact Hw).
    split; [exact Hw|]. split; [|split; [|split; [exact Ho|exact Hs1]]].
    + destruct Ho as [? ? w w' ? ? ? ? ? l l' ? ? ? ? ? ? _ _ _ _ Hl _ _ _]. cbn [out_loss]. destruct l, l'; cbn in Hl; try tauto. cbn. f_equal. symmetry. exact Hl.
    + destruct Ho as [tr tr' ? ? ? ? ? ? ? ? ? ? ? ? ? ? ? Htr _ _ _ _ _ _ _]. cbn [out_trace]. clear -Htr.
      induction Htr as [|[a r] [a' r'] tr tr' [E H] Htr IH]; cbn; [reflexivity|]. rewrite IH. cbn in E. subst a'.
      destruct H as [_ H1 H2 _ _ _]. cbn in *. rewrite H1, H2. reflexivity.
Qed.
Print Assumptions C95_numbers.

(** On integers with a gradient component: y = 7 observed with a gradient, or frozen. *)
Lemma ZL_value_laws : value_laws ZL.
Proof.
  constructor; cbn; repeat match goal with |- forall _ : ZT, _ => intros [[? ?] ?] end; try (intros _ _ [[? ?] ?]); rewrite ?Z.add_0_r, ?Z.sub_0_r; reflexivity.
Qed.
Definition frozen : pyval ZT -> dict (pyval ZT) -> model ZL := fun _ _ =>
  MVar (L := ZL) "x" 3%Z None true (fun x =>
  MVar (L := ZL) "y" 5%Z (Some ((true, 7, 0)%Z, None)) true (fun _ =>
  MRet (L := ZL) (VDict [("x", VTensor (detach ZL x))]))).
Example C95_case :
  inf_rel (same_numbers ZL) xyz (prop_z frozen ax_model z_model) /\ called (same_numbers ZL) [] /\
  exists ds o s1, path (run (L := ZL) xyz VNone [] (st0 ZL)) ds (Ok o, s1) /\ map snd ds = [zten 2; zten 5; zten 6] /\
    exists ds' o' s1', path (run (L := ZL) (prop_z frozen ax_model z_model) VNone [] (st0 ZL)) ds' (Ok o', s1') /\
      map snd ds' = [detach ZL (zten 2); detach ZL (zten 5); detach ZL (zten 6)] /\ detach ZL (out_lw o') = detach ZL (out_lw o).
Proof.
  assert (Hd : forall d, r_dist (same_numbers ZL) d d).
  { intros d [[? ?] ?] [[? ?] ?] H. cbn in *. congruence. }
  assert (H1 : inf_rel (same_numbers ZL) xyz (prop_z frozen ax_model z_model)).
  { apply ir_propose; [apply ir_prog|apply ir_compose; [apply ir_prog|apply ir_prog|apply opts0_rel]|apply opts0_rel|exact I]; intros; unfold xy_model, frozen, ax_model, z_model;
      repeat (eapply (mr_var (same_numbers ZL)); [apply Hd|first [exact I|split; reflexivity]|intros ? ? ?]);
      (apply mr_ret, vr_dict; constructor; [split; [reflexivity|apply vr_tensor]|constructor]); try assumption.
    cbn [snd] in *. match goal with H : r_value _ ?a ?b |- r_value _ ?a (detach ZL ?b) => cbn in H |- *; destruct a as [[? ?] ?], b as [[? ?] ?]; exact H end. }
  assert (H2 : called (same_numbers ZL) []) by (split; [constructor|cbn; auto]).
  split; [exact H1|]. split; [exact H2|].
  destruct (drawn_by (run (L := ZL) xyz VNone []) (st0 ZL) [zten 2; zten 5; zten 6] (fun _ _ => tt) tt) as (ds & o & s1 & Hp & Eds & _).
  { vm_compute. reflexivity. }
  exists ds, o, s1. split; [exact Hp|]. split; [exact Eds|].
  destruct (C95_numbers ZL ZL_laws ZL_value_laws _ _ VNone VNone [] [] _ _ _ _ _ [detach ZL (zten 2); detach ZL (zten 5); detach ZL (zten 6)] H1 H2 (vr_none _) (Forall2_nil _) (st0_rel _) Hp) as (ds' & o' & s1' & Hp' & Ed & Ew & _).
  { clear -Eds. repeat (destruct ds as [|[? ?] ds]; [discriminate Eds|]; cbn in Eds; injection Eds as -> Eds; constructor; [reflexivity|]). destruct ds; [constructor|discriminate]. }
  exists ds', o', s1'. auto.
Qed.
