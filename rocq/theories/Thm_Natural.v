(** Proof of C93. *)
From Verif Require Import SpecNatural RunEq.

Lemma res_rel_ok {A B} (R : A -> B -> Prop) a b : R a b -> res_rel R (Ok a) (Ok b).
Proof. intros H x [= <-]. exists b. split; [reflexivity|exact H]. Qed.
Lemma res_rel_err {A B} (R : A -> B -> Prop) e (y : res B) : res_rel R (Err e) y.
Proof. intros x [=]. Qed.
Lemma res_rel_bind {A B C D} (R : A -> B -> Prop) (Q : C -> D -> Prop) x y f g :
  res_rel R x y -> (forall a b, R a b -> res_rel Q (f a) (g b)) -> res_rel Q (rbind x f) (rbind y g).
Proof. intros H Hf. destruct x as [a|e]; [|apply res_rel_err]. destruct (H a eq_refl) as (b & -> & Hr). apply Hf, Hr. Qed.
Lemma res_rel_map {A B C D} (R : A -> B -> Prop) (Q : C -> D -> Prop) x y f g :
  res_rel R x y -> (forall a b, R a b -> Q (f a) (g b)) -> res_rel Q (rmap f x) (rmap g y).
Proof. intros H Hf. destruct x as [a|e]; [|apply res_rel_err]. destruct (H a eq_refl) as (b & -> & Hr). apply res_rel_ok, Hf, Hr. Qed.

Section Natural.
  Context {L L' : lib} (K : relations L L') (RK : respected K)
          (HO : (forall l, Permutation (order L l) l) /\ (forall l, Permutation (order L' l) l)) (HL : lib_laws L \/ lib_laws L').
  Notation rn := (ren K).
  Notation inj := (rs_inj K RK).
  Lemma eqb_rn a b : String.eqb (rn a) (rn b) = String.eqb a b.
  Proof.
    destruct (String.eqb a b) eqn:E.
    - apply String.eqb_eq in E. subst. apply String.eqb_refl.
    - apply String.eqb_neq in E. apply String.eqb_neq. intros H. apply E, inj, H.
  Qed.
  Lemma mem_rn a l : mem (rn a) (map rn l) = mem a l.
  Proof. unfold mem. induction l as [|b l IH]; cbn; [reflexivity|]. rewrite eqb_rn, IH. reflexivity. Qed.
  Lemma filter_rn (f g : string -> bool) l : (forall a, g (rn a) = f a) -> filter g (map rn l) = map rn (filter f l).
  Proof. intros H. induction l as [|b l IH]; cbn; [reflexivity|]. rewrite H. destruct (f b); cbn; rewrite IH; reflexivity. Qed.
  Lemma sdiff_rn a b : sdiff (map rn a) (map rn b) = map rn (sdiff a b).
  Proof. apply filter_rn. intros x. rewrite mem_rn. reflexivity. Qed.
  Lemma sinter_rn a b : sinter (map rn a) (map rn b) = map rn (sinter a b).
  Proof. apply filter_rn. intros x. apply mem_rn. Qed.

  (** *** dicts *)
  Section Dicts.
    Context {A B : Type} (R : A -> B -> Prop).
    Lemma dget_rel k d d' : dict_rel K R d d' -> opt_rel R (dget k d) (dget (rn k) d').
    Proof.
      induction 1 as [|[a x] [a' x'] d d' [E H] Hd IH]; cbn; [exact I|]. cbn in E, H. subst a'. rewrite eqb_rn. destruct (String.eqb k a); [exact H|exact IH].
    Qed.
    Lemma dmem_rel k d d' : dict_rel K R d d' -> dmem (rn k) d' = dmem k d.
    Proof. intros H. unfold dmem. apply (dget_rel k) in H. destruct (dget k d), (dget (rn k) d'); cbn in H; tauto. Qed.
    Lemma dset_rel k v v' d d' : dict_rel K R d d' -> R v v' -> dict_rel K R (dset k v d) (dset (rn k) v' d').
    Proof.
      intros H Hv. induction H as [|[a x] [a' x'] d d' [E H] Hd IH]; cbn.
      - constructor; [split; [reflexivity|exact Hv]|constructor].
      - cbn in E, H. subst a'. rewrite eqb_rn. destruct (String.eqb k a); constructor; try exact Hd; try exact IH; split; cbn; auto.
    Qed.
    Lemma dkeys_rel d d' : dict_rel K R d d' -> dkeys d' = map rn (dkeys d).
    Proof. unfold dkeys. induction 1 as [|[a x] [a' x'] d d' [E H] Hd IH]; cbn; [reflexivity|]. rewrite IH. f_equal. exact E. Qed.
    Lemma dmerge_rel d d' : dict_rel K R d d' -> forall e e', dict_rel K R e e' -> dict_rel K R (dmerge e d) (dmerge e' d').
    Proof.
      unfold dmerge. induction 1 as [|[a x] [a' x'] d d' [E H] Hd IH]; intros e e' He; cbn; [exact He|]. apply IH. cbn in E. subst a'. apply dset_rel; assumption.
    Qed.
    Lemma dict_rel_filter (f : string * A -> bool) (g : string * B -> bool) d d' :
      (forall a x x', R x x' -> g (rn a, x') = f (a, x)) -> dict_rel K R d d' -> dict_rel K R (filter f d) (filter g d').
    Proof.
      intros Hf. induction 1 as [|[a x] [a' x'] d d' [E H] Hd IH]; cbn; [constructor|]. cbn in E, H. subst a'.
      rewrite (Hf a x x' H). destruct (f (a, x)); [|exact IH]. constructor; [split; [reflexivity|exact H]|exact IH].
    Qed.
  End Dicts.
  Section Kws.
    Context {A B : Type} (R : A -> B -> Prop).
    Definition kdict (d : dict A) (d' : dict B) : Prop := Forall2 (fun kv kv' => fst kv' = fst kv /\ R (snd kv) (snd kv')) d d'.
    Lemma kget k d d' : kdict d d' -> opt_rel R (dget k d) (dget k d').
    Proof.
      induction 1 as [|[a x] [a' x'] d d' [E H] Hd IH]; cbn; [exact I|]. cbn in E, H. subst a'. destruct (String.eqb k a); [exact H|exact IH].
    Qed.
    Lemma kmem k d d' : kdict d d' -> dmem k d' = dmem k d.
    Proof. intros H. unfold dmem. apply (kget k) in H. destruct (dget k d), (dget k d'); cbn in H; tauto. Qed.
    Lemma kset k v v' d d' : kdict d d' -> R v v' -> kdict (dset k v d) (dset k v' d').
    Proof.
      intros H Hv. induction H as [|[a x] [a' x'] d d' [E H] Hd IH]; cbn.
      - constructor; [split; [reflexivity|exact Hv]|constructor].
      - cbn in E, H. subst a'. destruct (String.eqb k a); constructor; try exact Hd; try exact IH; split; cbn; auto.
    Qed.
    Lemma kmerge d d' : kdict d d' -> forall e e', kdict e e' -> kdict (dmerge e d) (dmerge e' d').
    Proof.
      unfold dmerge. induction 1 as [|[a x] [a' x'] d d' [E H] Hd IH]; intros e e' He; cbn; [exact He|]. apply IH. cbn in E. subst a'. apply kset; assumption.
    Qed.
    Lemma kfilter (f : string -> bool) d d' : kdict d d' -> kdict (filter (fun kv => f (fst kv)) d) (filter (fun kv => f (fst kv)) d').
    Proof.
      induction 1 as [|[a x] [a' x'] d d' [E H] Hd IH]; cbn; [constructor|]. cbn in E, H. subst a'. destruct (f a); [|exact IH].
      constructor; [split; [reflexivity|exact H]|exact IH].
    Qed.
    Lemma kapp d d' e e' : kdict d d' -> kdict e e' -> kdict (d ++ e) (d' ++ e').
    Proof. intros. apply Forall2_app; assumption. Qed.
    Lemma kclash l d d' : kdict d d' -> existsb (fun kv => mem (fst kv) l) d' = existsb (fun kv => mem (fst kv) l) d.
    Proof. induction 1 as [|[a x] [a' x'] d d' [E H] Hd IH]; cbn; [reflexivity|]. cbn in E. subst a'. rewrite IH. reflexivity. Qed.
    Lemma kfor f d d' e e' : kdict d d' -> kdict e e' -> kdict (kwargs_for f d e) (kwargs_for f d' e').
    Proof.
      intros H He. unfold kwargs_for. induction H as [|[a x] [a' x'] d d' [E H] Hd IH]; cbn; [constructor|]. cbn in E, H. subst a'. rewrite (kmem a _ _ He).
      destruct (check_passable_kwarg a f && negb (dmem a e))%bool; [|exact IH]. constructor; [split; [reflexivity|exact H]|exact IH].
    Qed.
    Lemma kdispatch fn d d' : kdict d d' -> kdict (dispatch_kwargs fn d) (dispatch_kwargs fn d').
    Proof.
      intros H. unfold dispatch_kwargs. assert (H0 : kdict (kwargs_for (c_self fn) d []) (kwargs_for (c_self fn) d' [])) by (apply kfor; [exact H|constructor]).
      destruct (c_forward fn) as [f|], (c_model fn) as [g|]; repeat first [exact H0 | exact H | apply kmerge | apply kfor].
    Qed.
  End Kws.
  Notation vrel := (val_rel K). Notation krel := (kw_rel K). Notation trel := (trace_rel K). Notation orel := (out_rel K). Notation srel := (st_rel K).

  Lemma truthy_rel v v' : vrel v v' -> truthy v' = truthy v.
  Proof. intros H. destruct H as [ | | | | |l l' H|d d' H| ]; try reflexivity; destruct H; reflexivity. Qed.
  Lemma is_none_rel v v' : vrel v v' -> is_none v' = is_none v.
  Proof. destruct 1; reflexivity. Qed.
  Lemma kwarg_rel k dv dv' kws kws' : krel kws kws' -> vrel dv dv' -> vrel (kwarg k dv kws) (kwarg k dv' kws').
  Proof. intros H Hd. unfold kwarg. apply (kget vrel k) in H. destruct (dget k kws), (dget k kws'); cbn in H; tauto. Qed.
  Lemma clash_rel l kws kws' : krel kws kws' -> clash l kws' = clash l kws.
  Proof. apply (kclash vrel). Qed.

  (** *** traces *)
  Lemma observed_rel r r' : rv_rel K r r' -> is_observed r' = is_observed r.
  Proof. intros H. unfold is_observed. rewrite (rr_prov _ _ _ H). reflexivity. Qed.
  Lemma reused_rel r r' : rv_rel K r r' -> is_reused r' = is_reused r.
  Proof. intros H. unfold is_reused. rewrite (rr_prov _ _ _ H). reflexivity. Qed.
  Lemma latent_rel tr tr' : trel tr tr' -> latent_addrs tr' = map rn (latent_addrs tr).
  Proof.
    intros H. unfold latent_addrs. apply (dkeys_rel (rv_rel K)). apply dict_rel_filter; [|exact H]. intros a x x' Hx. cbn. rewrite (observed_rel _ _ Hx). reflexivity.
  Qed.
  Lemma forallb_rel (f : string * rv L -> bool) (g : string * rv L' -> bool) tr tr' :
    (forall a r r', rv_rel K r r' -> g (rn a, r') = f (a, r)) -> trel tr tr' -> forallb g tr' = forallb f tr.
  Proof.
    intros Hf. induction 1 as [|[a x] [a' x'] d d' [E H] Hd IH]; cbn; [reflexivity|]. cbn in E, H. subst a'. rewrite (Hf _ _ _ H), IH. reflexivity.
  Qed.
  Lemma ljf_rel sd sd' bd bd' rep rep' names tr tr' : r_call K sd bd rep -> vrel sd sd' -> vrel bd bd' -> vrel rep rep' -> trel tr tr' -> forall acc acc',
    r_weight K acc acc' -> res_rel (r_weight K) (log_joint_from sd bd rep names tr acc) (log_joint_from sd' bd' rep' (map rn names) tr' acc').
  Proof.
    intros HC H1 H2 H3 Ht. induction names as [|n ns IH]; intros acc acc' Ha; cbn [log_joint_from map]; [apply res_rel_ok, Ha|].
    pose proof (dget_rel (rv_rel K) n _ _ Ht) as Hg. destruct (dget n tr) as [r|], (dget (rn n) tr') as [r'|]; cbn in Hg; try tauto; [|apply IH, Ha].
    destruct (lj_ok L rep (rv_rep r) (rv_prov r)) eqn:E; [|apply res_rel_err].
    rewrite <- (rr_rep _ _ _ Hg), <- (rr_prov _ _ _ Hg), (rs_lj K RK _ _ _ _ _ _ HC H3 E). apply IH. apply (rs_add K RK); [exact Ha|]. eapply (rs_bsum K RK); [eassumption..|apply (rr_logp _ _ _ Hg)].
  Qed.
  Lemma ljf_perm {X : lib} (HX : lib_laws X) sd bd rep (tr : trace X) ns ns' : Permutation ns ns' -> forall acc x, log_joint_from sd bd rep ns tr acc = Ok x -> log_joint_from sd bd rep ns' tr acc = Ok x.
  Proof.
    induction 1 as [|n l l' Hp IH|a b l|l1 l2 l3 H1 IH1 H2 IH2]; intros acc x H; cbn [log_joint_from] in *; [exact H| | |auto].
    - destruct (dget n tr) as [r|]; [|auto]. destruct (lj_ok X rep (rv_rep r) (rv_prov r)); [auto|discriminate].
    - destruct (dget a tr) as [r|] eqn:Ea, (dget b tr) as [r'|] eqn:Eb; try exact H.
      destruct (lj_ok X rep (rv_rep r') (rv_prov r')); [|discriminate]. destruct (lj_ok X rep (rv_rep r) (rv_prov r)); [|discriminate].
      rewrite <- (tadd_assoc X HX), (tadd_comm X HX (bsum X sd bd (rv_logp r))), (tadd_assoc X HX). exact H.
  Qed.
  Lemma lj_rel sd sd' bd bd' rep rep' names tr tr' : r_call K sd bd rep -> vrel sd sd' -> vrel bd bd' -> vrel rep rep' -> trel tr tr' ->
    res_rel (r_weight K) (log_joint sd bd rep names tr) (log_joint sd' bd' rep' (map rn names) tr').
  Proof.
    intros HC H1 H2 H3 Ht x Hx. unfold log_joint in *.
    destruct HO as [OL OL']. destruct HL as [HX|HX].
    { destruct (Permutation_map_inv rn _ (OL' (map rn names))) as (ns & E & Hns). rewrite E.
      eapply (ljf_perm HX) in Hx; [|transitivity names; [apply OL|exact Hns]]. exact (ljf_rel _ _ _ _ _ _ ns _ _ HC H1 H2 H3 Ht _ _ (rs_zero K RK) x Hx). }
    destruct (ljf_rel _ _ _ _ _ _ (order L names) _ _ HC H1 H2 H3 Ht _ _ (rs_zero K RK) x Hx) as (y & Hy & Hr).
    exists y. split; [|exact Hr]. eapply (ljf_perm HX); [|exact Hy].
    transitivity (map rn names); [apply Permutation_map, OL|symmetry; apply OL'].
  Qed.
  Lemma copy_items_rel ex ex' mode tr tr' : (forall a, ex' (rn a) = ex a) -> trel tr tr' -> forall acc acc', trel acc acc' ->
    res_rel trel (copy_items ex mode tr acc) (copy_items ex' mode tr' acc').
  Proof.
    intros He. induction 1 as [|[a x] [a' x'] d d' [E H] Hd IH]; intros acc acc' Ha; cbn [copy_items]; [apply res_rel_ok, Ha|]. cbn in E, H. subst a'.
    eapply res_rel_bind; [|exact IH]. unfold copy_item. rewrite He. destruct (ex a); [apply res_rel_ok, Ha|]. rewrite (dmem_rel _ a _ _ Ha).
    destruct (dmem a acc); [destruct mode; [|apply res_rel_ok, Ha|apply res_rel_err]|]; apply res_rel_ok; repeat (apply dset_rel; [|exact H]); exact Ha.
  Qed.
  Lemma copytraces_rel ex ex' mode trs trs' : (forall a, ex' (rn a) = ex a) -> Forall2 trel trs trs' ->
    res_rel trel (copytraces ex mode trs) (copytraces ex' mode trs').
  Proof.
    intros He. unfold copytraces. assert (H0 : trel [] []) by constructor. revert H0. generalize (@nil (string * rv L)) as acc, (@nil (string * rv L')) as acc'.
    intros acc acc' H0 H. revert acc acc' H0. induction H as [|t t' l l' Ht Hl IH]; intros acc acc' Ha; cbn [copy_all]; [apply res_rel_ok, Ha|].
    eapply res_rel_bind; [apply copy_items_rel; [exact He|exact Ht|exact Ha]|]. intros b b' Hb. apply IH, Hb.
  Qed.
  Lemma rerun_rel tr tr' : trel tr tr' -> res_rel trel (rerun_with_detached_values tr) (rerun_with_detached_values tr').
  Proof.
    unfold rerun_with_detached_values. assert (H0 : trel [] []) by constructor. revert H0. generalize (@nil (string * rv L)) as acc, (@nil (string * rv L')) as acc'.
    intros acc acc' H0 H. revert acc acc' H0. induction H as [|[a x] [a' x'] d d' [E H] Hd IH]; intros acc acc' Ha; cbn [rerun_items]; [apply res_rel_ok, Ha|].
    cbn in E, H. subst a'. apply (res_rel_bind (rv_rel K)); [|intros r r' Hr; apply IH, dset_rel; assumption].
    destruct H as [Hden Hv Hp Hpr Hre Hrs]. pose proof (rs_detach K RK _ _ Hv) as Hdv. unfold rerun_rv. destruct (rv_den x) as [dd|f|], (rv_den x') as [dd'|f'|]; cbn in Hden; try tauto;
      [| |apply res_rel_err]; apply res_rel_ok; (constructor; cbn; auto). apply (rs_logp K RK); assumption.
  Qed.
  Lemma as_trace_rel tr tr' : trel tr tr' -> trel (as_trace tr) (as_trace tr').
  Proof. intros H. unfold as_trace. apply dmerge_rel; [exact H|constructor]. Qed.
  Lemma detach_output_rel v v' : vrel v v' -> vrel (detach_output v) (detach_output v').
  Proof.
    intros H. inversion H as [ | | | |x x' Hx|l l' Hl|d d' Hd| ]; subst; cbn; try assumption.
    - constructor. apply (rs_detach K RK), Hx.
    - constructor. clear H. induction Hd as [|[a x] [a' x'] d d' [E H] Hd IH]; cbn; constructor; [|exact IH]. cbn in *. split; [exact E|].
      inversion H; subst; cbn; try assumption. constructor. apply (rs_detach K RK). assumption.
  Qed.
  Lemma resample_output_rel c c' tr tr' : dict_rel K vrel c c' -> trel tr tr' -> res_rel (dict_rel K vrel) (resample_output c tr) (resample_output c' tr').
  Proof.
    intros H Ht. induction H as [|[a x] [a' x'] d d' [E H] Hd IH]; cbn [resample_output]; [apply res_rel_ok; constructor|]. cbn in E, H. subst a'.
    apply (res_rel_bind vrel).
    - pose proof (dget_rel _ a _ _ Ht) as Hg. destruct (dget a tr) as [r|], (dget (rn a) tr') as [r'|]; cbn in Hg; try tauto; [|apply res_rel_ok, H].
      inversion H; subst; try apply res_rel_err. apply res_rel_ok. constructor. apply Hg.
    - intros v v' Hv. eapply res_rel_bind; [exact IH|]. intros e e' He. apply res_rel_ok. constructor; [split; [reflexivity|exact Hv]|exact He].
  Qed.

  (** *** states *)
  Lemma cget_cdel {X : lib} (i j : nat) (l : list (nat * trace X)) : cget i (cdel j l) = if Nat.eqb i j then None else cget i l.
  Proof.
    unfold cdel. induction l as [|[k t] l IH]; cbn; [destruct (Nat.eqb i j); reflexivity|].
    destruct (Nat.eqb j k) eqn:E; cbn; rewrite ?IH.
    - apply Nat.eqb_eq in E. subst k. destruct (Nat.eqb i j); reflexivity.
    - destruct (Nat.eqb i k) eqn:E2; [|reflexivity]. apply Nat.eqb_eq in E2. subst k. rewrite Nat.eqb_sym, E. reflexivity.
  Qed.
  Lemma get_set_cond {X : lib} i j t (s : st X) : get_cond i (set_cond j t s) = if Nat.eqb i j then t else get_cond i s.
  Proof. unfold get_cond, set_cond, cset. destruct t as [t|]; cbn; rewrite cget_cdel; destruct (Nat.eqb i j); reflexivity. Qed.
  Lemma set_cond_rel i t t' s s' : srel s s' -> opt_rel trel t t' -> srel (set_cond i t s) (set_cond i t' s').
  Proof.
    intros [H1 H2 H3] Ht. constructor; [|exact H2|exact H3]. intros j. rewrite !get_set_cond. destruct (Nat.eqb j i); [exact Ht|apply H1].
  Qed.
  Lemma set_store_rel d d' s s' : srel s s' -> dict_rel K vrel d d' -> srel (set_store d s) (set_store d' s').
  Proof. intros [H1 H2 H3] Hd. constructor; [exact H1|exact Hd|exact H3]. Qed.
  Lemma log_call_rel c c' s s' : srel s s' -> srel (log_call c s) (log_call c' s').
  Proof. intros [H1 H2 H3]. constructor; [exact H1|exact H2|exact H3]. Qed.

  (** *** runs *)
  Definition failed {A} (x : res A * st L) : Prop := exists e, fst x = Err e.
  Definition both {A B} (R : A -> B -> Prop) (x : res A * st L) (y : res B * st L') : Prop :=
    exists a b, fst x = Ok a /\ fst y = Ok b /\ R a b /\ srel (snd x) (snd y).
  Notation sim R := (mirrors K failed (both R)).
  Lemma sim_err {A B} (R : A -> B -> Prop) e s t' : sim R (Leaf (Err e, s)) t'.
  Proof. apply mi_fail. exists e. reflexivity. Qed.
  Lemma sim_ok {A B} (R : A -> B -> Prop) a b s s' : R a b -> srel s s' -> sim R (Leaf (Ok a, s)) (Leaf (Ok b, s')).
  Proof. intros. apply mi_leaf. exists a, b. repeat split; auto; apply H0. Qed.
  Lemma mi_bind {A B A2 B2} (F : A -> Prop) (R : A -> B -> Prop) (F2 : A2 -> Prop) (Q : A2 -> B2 -> Prop) t t' f f' :
    mirrors K F R t t' -> (forall a, F a -> exists x, f a = Leaf x /\ F2 x) -> (forall a b, R a b -> mirrors K F2 Q (f a) (f' b)) -> mirrors K F2 Q (tbind t f) (tbind t' f').
  Proof.
    intros H Hf Hr. induction H as [a t' Ha|a b Hab|d d' k k' Hd H IH]; cbn [tbind].
    - destruct (Hf a Ha) as (x & -> & Hx). apply mi_fail, Hx.
    - apply Hr, Hab.
    - apply mi_draw; [exact Hd|]. exact IH.
  Qed.
  Lemma sim_mbind {A B A2 B2} (R : A -> B -> Prop) (Q : A2 -> B2 -> Prop) (m : M L A) (m' : M L' B) f f' s s' :
    sim R (m s) (m' s') -> (forall a b s1 s1', R a b -> srel s1 s1' -> sim Q (f a s1) (f' b s1')) -> sim Q (mbind m f s) (mbind m' f' s').
  Proof.
    intros H Hf. unfold mbind. eapply mi_bind; [exact H| |].
    - intros [r s1] [e E]. cbn in E |- *. subst r. eexists. split; [reflexivity|]. exists e. reflexivity.
    - intros [r s1] [r' s1'] (a & b & E1 & E2 & Hr & Hs). cbn in *. subst. apply Hf; assumption.
  Qed.
  Lemma sim_lift {A B} (R : A -> B -> Prop) x y s s' : res_rel R x y -> srel s s' -> sim R (lift x s) (lift y s').
  Proof. intros H Hs. unfold lift. destruct x as [a|e]; [|apply sim_err]. destruct (H a eq_refl) as (b & -> & Hr). apply sim_ok; assumption. Qed.
  Lemma sim_get s s' : srel s s' -> sim srel (get s) (get s').
  Proof. intros H. apply sim_ok; assumption. Qed.
  Lemma sim_massert b b' s s' : (b = true -> b' = true) -> srel s s' -> sim (fun _ _ => True) (massert b s) (massert b' s').
  Proof. intros Hb H. unfold massert. destruct b; [rewrite Hb by reflexivity; apply sim_ok; [exact I|exact H]|apply sim_err]. Qed.
  Lemma sim_subst {A B} (R : A -> B -> Prop) oid t t' (m : M L A) (m' : M L' B) s s' :
    opt_rel trel t t' -> srel s s' -> (forall s1 s1', srel s1 s1' -> sim R (m s1) (m' s1')) ->
    sim R (with_substitution oid t m s) (with_substitution oid t' m' s').
  Proof.
    intros Ht Hs Hm. unfold with_substitution. apply (sim_mbind (opt_rel trel)).
    - destruct t as [t|], t' as [t'|]; cbn in Ht; try tauto; [|apply sim_ok; [exact I|exact Hs]].
      apply sim_lift; [|exact Hs]. eapply res_rel_map; [apply copytraces_rel; [intros; reflexivity|constructor; [exact Ht|constructor]]|]. intros a b H. exact H.
    - intros u u' s1 s1' Hu H1. apply (sim_mbind (fun _ _ => True)); [apply sim_ok; [exact I|]; apply set_cond_rel; assumption|].
      intros _ _ s2 s2' _ H2. unfold mfinally. eapply mi_bind; [apply Hm, H2| |].
      + intros [r s3] [e E]. cbn in E |- *. subst r. eexists. split; [reflexivity|]. exists e. reflexivity.
      + intros [r s3] [r' s3'] (a & b & E1 & E2 & Hr & H3). cbn in *. subst. apply sim_ok; [exact Hr|]. apply set_cond_rel; [exact H3|exact I].
  Qed.
  Definition ot_rel (x : pyval (T L) * trace L) (y : pyval (T L') * trace L') : Prop := vrel (fst x) (fst y) /\ trel (snd x) (snd y).
  Lemma add_node_rel a r r' tr tr' : trel tr tr' -> rv_rel K r r' -> res_rel trel (add_node a r tr) (add_node (rn a) r' tr').
  Proof.
    intros Ht Hr. unfold add_node. rewrite (dmem_rel _ a _ _ Ht). destruct (dmem a tr); [apply res_rel_err|]. apply res_rel_ok, dset_rel; assumption.
  Qed.
  Lemma exec_rel cond cond' m m' : opt_rel trel cond cond' -> model_rel K m m' -> forall tr tr' s s', trel tr tr' -> srel s s' ->
    sim ot_rel (exec cond m tr s) (exec cond' m' tr' s').
  Proof.
    intros Hc. induction 1 as [o o' Ho|e m'|a d d' x x' rep k k' Hd Hx Hk IH|a r r' k k' Hr Hk IH|k k' Hk IH|k k' Hk IH|d d' rep sh sh' k k' Hd Hsh Hk IH|a k k' Hk IH|a v v' k k' Hv Hk IH];
      intros tr tr' s s' Ht Hs; cbn [exec].
    - apply sim_ok; [split; assumption|exact Hs].
    - apply sim_err.
    - assert (Hfin : forall v v' p s s', r_value K v v' -> srel s s' ->
        sim ot_rel (mbind (lift (add_node a (mkRV (Proper d) v (logp L d v) p rep true) tr)) (fun tr' => exec cond (k v) tr') s)
                   (mbind (lift (add_node (rn a) (mkRV (Proper d') v' (logp L' d' v') p rep true) tr')) (fun tr' => exec cond' (k' v') tr') s')).
      { intros v v' p s0 s0' Hv Hs0. apply (sim_mbind trel).
        - apply sim_lift; [|exact Hs0]. apply add_node_rel; [exact Ht|]. constructor; cbn; auto. apply (rs_logp K RK); assumption.
        - intros t1 t1' s1 s1' H1 H2. apply IH; assumption. }
      destruct x as [[v pv]|], x' as [[v' pv']|]; cbn in Hx; try tauto.
      + destruct Hx as [Hv ->]. apply Hfin; assumption.
      + assert (Hg : opt_rel (rv_rel K) (match cond with Some ct => dget a ct | None => None end) (match cond' with Some ct => dget (rn a) ct | None => None end)).
        { destruct cond as [ct|], cond' as [ct'|]; cbn in Hc; try tauto; apply dget_rel, Hc. }
        destruct (match cond with Some ct => dget a ct | None => None end) as [r|], (match cond' with Some ct => dget (rn a) ct | None => None end) as [r'|]; cbn in Hg; try tauto.
        * apply Hfin; [apply Hg|exact Hs].
        * apply mi_draw; [repeat split; [exact Hd|constructor]|]. intros v v' Hv. apply Hfin; assumption.
    - apply IH; [|exact Hs]. apply dset_rel; assumption.
    - apply IH; assumption.
    - apply IH; assumption.
    - apply mi_draw; [repeat split; assumption|]. intros v v' Hv. apply IH; assumption.
    - apply IH; try assumption. apply dget_rel, (sr_store _ _ _ Hs).
    - apply IH; try assumption. apply set_store_rel; [exact Hs|]. apply dset_rel; [apply (sr_store _ _ _ Hs)|exact Hv].
  Qed.
  Lemma forward_rel oid sg m m' c c' kws kws' s s' :
    (forall c c' kws kws', vrel c c' -> krel kws kws' -> model_rel K (m c kws) (m' c' kws')) -> called K kws -> vrel c c' -> krel kws kws' -> srel s s' ->
    sim orel (forward oid sg m c kws s) (forward oid sg m' c' kws' s').
  Proof.
    intros Hm [_ HC] Hc Hk Hs. unfold forward.
    pose proof (kwarg_rel "sample_dims" _ _ _ _ Hk (vr_none K)) as Hsd. pose proof (kwarg_rel "batch_dim" _ _ _ _ Hk (vr_none K)) as Hbd.
    pose proof (kwarg_rel "reparameterized" _ _ _ _ Hk (vr_bool K true)) as Hre.
    match goal with |- sim _ ((if _ || clash _ ?x then _ else _) _) ((if _ || clash _ ?y then _ else _) _) => assert (Hp : krel x y); [|set (P := x) in *; set (P' := y) in *] end.
    { apply kfilter with (f := fun a => check_passable_kwarg a sg). apply kmerge; [apply kfilter with (f := fun a => negb (mem a ["sample_dims"; "batch_dim"; "reparameterized"])), Hk|].
      repeat (constructor; [split; [reflexivity|assumption]|]). constructor. }
    rewrite (clash_rel _ _ _ Hk), (clash_rel _ _ _ Hp). destruct (_ || _)%bool; [apply sim_err|].
    apply (sim_mbind srel); [apply sim_get, Hs|]. intros s0 s0' s1 s1' H0 H1. apply (sim_mbind (fun _ _ => True)); [apply sim_ok; [exact I|apply log_call_rel, H1]|].
    intros _ _ s2 s2' _ H2. pose proof (sr_conds _ _ _ H0 oid) as Hcond.
    apply (sim_mbind ot_rel); [apply exec_rel; [exact Hcond|apply Hm; assumption|constructor|exact H2]|].
    intros [o tr] [o' tr'] s3 s3' [Ho Ht] H3. cbn [fst snd] in Ho, Ht.
    assert (Hl : match get_cond oid s0' with Some ct => latent_addrs ct | None => [] end = map rn (match get_cond oid s0 with Some ct => latent_addrs ct | None => [] end)).
    { destruct (get_cond oid s0), (get_cond oid s0'); cbn in Hcond; try tauto; try reflexivity; apply latent_rel, Hcond. }
    apply (sim_mbind (r_weight K)).
    - apply sim_lift; [|exact H3]. rewrite Hl, (dkeys_rel _ _ _ Ht), (latent_rel _ _ Ht), !sdiff_rn. apply lj_rel; assumption.
    - intros w w' s4 s4' Hw H4. apply sim_ok; [|exact H4]. constructor; try exact I; try assumption. constructor.
  Qed.

  (** *** combinators *)
  Record bound_rel (b : bound L) (b' : bound L') : Prop := mkBoundRel {
    br_sd : vrel (b_sd b) (b_sd b'); br_bd : vrel (b_bd b) (b_bd b'); br_debug : vrel (b_debug b) (b_debug b');
    br_rep : vrel (b_rep b) (b_rep b'); br_ix : vrel (b_ix b) (b_ix b'); br_shared : krel (b_shared b) (b_shared b');
    br_call : r_call K (b_sd b) (b_bd b) (b_rep b); br_wf : forall ix, wf_dict (inf_kwargs b ix ++ b_shared b) }.
  Lemma bind_call_rel kws kws' : called K kws -> krel kws kws' -> res_rel bound_rel (bind_call kws) (bind_call kws').
  Proof.
    intros [Hwf HC] H. assert (Hw : forall b, bind_call kws = Ok b -> forall ix, wf_dict (inf_kwargs b ix ++ b_shared b)).
    { intros b Hb ix. pose proof (wf_sub_kwargs VNone kws Hwf) as Hs. rewrite <- (sub_kwargs_eq kws b VNone Hb) in Hs. exact Hs. }
    unfold bind_call in *. rewrite (clash_rel _ _ _ H). destruct (clash _ kws); [apply res_rel_err|]. apply res_rel_ok.
    constructor; [try (apply kwarg_rel; [exact H|constructor])..| | |]; [apply (kfilter vrel (fun a => negb (mem a reserved))), H|exact HC|apply Hw; reflexivity].
  Qed.
  Lemma resolve_rel x x' y y' : vrel x x' -> vrel y y' -> vrel (resolve_ix x y) (resolve_ix x' y').
  Proof. intros H H'. unfold resolve_ix. rewrite (is_none_rel _ _ H). destruct (is_none x); assumption. Qed.
  Lemma shape_rel b b' : bound_rel b b' -> krel (shape_kwargs b) (shape_kwargs b').
  Proof. intros H. unfold shape_kwargs. repeat (constructor; [split; [reflexivity|apply H]|]). constructor. Qed.
  Lemma inf_kwargs_rel b b' ix ix' : bound_rel b b' -> vrel ix ix' -> krel (inf_kwargs b ix) (inf_kwargs b' ix').
  Proof. intros H Hi. unfold inf_kwargs. constructor; [split; [reflexivity|apply H]|]. constructor; [split; [reflexivity|exact Hi]|]. apply shape_rel, H. Qed.
  Lemma callee_rel t t' : inf_rel K t t' -> callee_of t' = callee_of t.
  Proof. destruct 1; reflexivity. Qed.
  Lemma oid_rel t t' : inf_rel K t t' -> oid_of t' = oid_of t.
  Proof. destruct 1; reflexivity. Qed.
  Lemma mdispatch_rel {A B} (R : A -> B -> Prop) t t' kws kws' (k : _ -> M L A) (k' : _ -> M L' B) s s' : inf_rel K t t' -> wf_dict kws -> krel kws kws' ->
    (forall a', krel kws a' -> sim R (k kws s) (k' a' s')) -> sim R (mdispatch t kws k s) (mdispatch t' kws' k' s').
  Proof.
    intros Ht Hw H Hk. unfold mdispatch. rewrite (clash_rel _ _ _ H). destruct (clash _ kws); [apply sim_err|]. rewrite (dispatch_all t kws Hw). apply Hk.
    rewrite <- (dispatch_all t kws Hw), (callee_rel _ _ Ht). apply kdispatch, H.
  Qed.
  Lemma orel_trace o o' : orel o o' -> trel (out_trace o) (out_trace o').
  Proof. destruct 1; assumption. Qed.
  Lemma orel_lw o o' : orel o o' -> r_weight K (out_lw o) (out_lw o').
  Proof. destruct 1; assumption. Qed.
  Lemma orel_output o o' : orel o o' -> vrel (out_output o) (out_output o').
  Proof. destruct 1; assumption. Qed.
  Lemma add_loss_rel lf lf' l0 l0' ch ch' o o' :
    (forall r r' l l', orel r r' -> r_loss K l l' -> res_rel (r_loss K) (lf r l) (lf' r' l')) -> opt_rel (r_loss K) l0 l0' -> orel ch ch' -> orel o o' ->
    res_rel orel (add_loss lf l0 ch o) (add_loss lf' l0' ch' o').
  Proof.
    intros Hlf Hl0 Hch Ho. unfold add_loss. eapply res_rel_map with (R := r_loss K).
    - apply Hlf; [exact Ho|]. destruct Hch as [tr tr' w w' c c' ty ix ix' l l' m m' px px' subs subs' _ _ _ _ Hl _ _ _]. cbn [out_loss].
      destruct l, l'; cbn in Hl; try tauto. destruct l0, l0'; cbn in Hl0; try tauto. apply (rs_zero_loss K RK).
    - intros a b Hab. destruct Ho. unfold with_loss. cbn [out_trace out_lw out_output out_type out_ix out_marginal out_px out_subs]. constructor; assumption.
  Qed.
  Lemma add_subs_rel dbg subs subs' o o' : Forall2 (fun ko ko' => fst ko' = fst ko /\ orel (snd ko) (snd ko')) subs subs' -> orel o o' -> orel (add_subs dbg subs o) (add_subs dbg subs' o').
  Proof.
    intros Hs Ho. unfold add_subs. destruct dbg; [|exact Ho]. destruct Ho. cbn [out_trace out_lw out_output out_type out_ix out_loss out_marginal out_px out_subs].
    constructor; try assumption. apply Forall2_app; assumption.
  Qed.
  Lemma empty_rel (l : list string) : match map rn l with [] => true | _ => false end = match l with [] => true | _ => false end.
  Proof. destruct l; reflexivity. Qed.
  Lemma marginalize_rel p p' o o' : inf_rel K p p' -> orel o o' ->
    res_rel (fun a b => vrel (fst a) (fst b) /\ trel (snd a) (snd b)) (marginalize p o) (marginalize p' o').
  Proof.
    intros Hp Ho. unfold marginalize. replace (is_extend p') with (is_extend p) by (destruct Hp; reflexivity).
    destruct (is_extend p); [|apply res_rel_ok; split; [apply orel_output|apply orel_trace]; exact Ho].
    pose proof (orel_trace _ _ Ho) as Ht.
    assert (Hm : opt_rel (fun a b => fst b = map rn (fst a) /\ vrel (snd a) (snd b)) (out_marginal o) (out_marginal o')) by (destruct Ho; assumption).
    destruct (out_marginal o) as [[mk mo]|], (out_marginal o') as [[mk' mo']|]; cbn in Hm; try tauto; [|apply res_rel_err].
    destruct Hm as [-> Hm]. eapply res_rel_map; [apply copytraces_rel; [|constructor; [exact Ht|constructor]]|].
    - intros a. rewrite (dkeys_rel _ _ _ Ht), sdiff_rn, mem_rn. reflexivity.
    - intros a b Hab. split; assumption.
  Qed.
  Lemma transf_rel_apply tf tf' tr tr' kws kws' : opt_rel (transf_rel K) tf tf' -> trel tr tr' -> krel kws kws' ->
    res_rel trel (apply_transf tf tr kws) (apply_transf tf' tr' kws').
  Proof.
    intros Hf Ht Hk. unfold apply_transf. destruct tf as [f|], tf' as [f'|]; cbn in Hf; try tauto; [|apply res_rel_ok, Ht].
    destruct Hf as [Hsg Hf]. rewrite Hsg. eapply res_rel_map; [apply Hf; [exact Ht|apply kdispatch, Hk]|]. intros a b. apply as_trace_rel.
  Qed.
  Lemma get_sub_rel k o o' : orel o o' -> opt_rel orel (get_sub k o) (get_sub k o').
  Proof. intros H. unfold get_sub. destruct H as [? ? ? ? ? ? ? ? ? ? ? ? ? ? ? subs subs' _ _ _ _ _ _ _ Hs]. cbn [out_subs]. apply (kget orel), Hs. Qed.
  Lemma forward_trace_rel q q' o o' : inf_rel K q q' -> orel o o' -> res_rel (opt_rel trel) (forward_trace q o) (forward_trace q' o').
  Proof.
    intros Hq Ho. unfold forward_trace. eapply res_rel_bind with (R := eq).
    - destruct Hq as [| |? ? ? ? ? ? ? ? ? Hop|? ? ? ? ? ? ? ? ? Hop|? ? ? ? ? ? ? ? ? ? ? ? Hop]; cbn [debug_attr]; try apply res_rel_err; apply res_rel_ok; [reflexivity|..]; symmetry; apply (op_debug _ _ _ Hop).
    - intros d d' <-. destruct d; [|apply res_rel_ok; exact I].
      replace (out_type o') with (out_type o) by (destruct Ho; reflexivity). destruct (out_type o); try (apply res_rel_ok; exact I).
      pose proof (get_sub_rel "q2_out" _ _ Ho) as Hg. destruct (get_sub "q2_out" o), (get_sub "q2_out" o'); cbn in Hg; try tauto; [|apply res_rel_err].
      apply res_rel_ok. cbn. apply orel_trace, Hg.
  Qed.
  Lemma update_rel a a' b b' s s' : srel s s' -> trel a a' -> trel b b' -> sim (fun _ _ => True) (resample_update a b s) (resample_update a' b' s').
  Proof.
    intros Hs Ha Hb. unfold resample_update. pose proof (sr_hook _ _ _ Hs _ _ _ _ _ _ (sr_store _ _ _ Hs) Ha Hb) as H.
    destruct (hook s (store s) a b) as [d|e]; [|apply sim_err]. destruct (H d eq_refl) as (d' & -> & Hd). apply sim_ok; [exact I|]. apply set_store_rel; assumption.
  Qed.
  Ltac two := repeat (constructor; [split; [reflexivity|cbn; assumption]|]); constructor.

  Theorem run_rel t t' : inf_rel K t t' -> forall c c' kws kws' s s', called K kws -> vrel c c' -> krel kws kws' -> srel s s' ->
    sim orel (run t c kws s) (run t' c' kws' s').
  Proof.
    induction 1 as [oid sg m m' Hm|oid q q' ix ix' l l' r r' dbg Hq IHq Hix Hl Hr|oid p p' f f' o o' Hp IHp Hf IHf Ho|oid q2 q2' q1 q1' o o' H2 IH2 H1 IH1 Ho|oid p p' q q' o o' tf tf' nr Hp IHp Hq IHq Ho Htf];
      intros c c' kws kws' s s' HC Hc Hk Hs; cbn [run].
    - apply forward_rel; assumption.
    - apply (sim_mbind bound_rel); [apply sim_lift; [apply bind_call_rel; assumption|exact Hs]|]. intros b b' s1 s1' Hb Hs1.
      pose proof (resolve_rel _ _ _ _ Hix (br_ix _ _ Hb)) as Hi.
      apply (sim_mbind orel). { apply IHq; [split; [apply Hb|exact (br_call _ _ Hb)]|exact Hc| |exact Hs1]. apply kapp; [apply inf_kwargs_rel; assumption|apply Hb]. }
      intros qo qo' s2 s2' Hqo Hs2. destruct Hr as [Esg Hrs].
      apply (sim_mbind (fun a b => trel (fst a) (fst b) /\ r_weight K (snd a) (snd b))).
      { eapply mi_bind with (F := fun x => exists e, x = Err e).
        - apply Hrs; [|apply orel_trace, Hqo|apply orel_lw, Hqo|].
          { exists (b_sd b), (b_bd b), (b_rep b). split; [apply (br_call _ _ Hb)|]. unfold shape_kwargs. cbn [filter fst].
            split; intros v; repeat destruct (check_passable_kwarg _ _); cbn [dget String.eqb Ascii.eqb Bool.eqb]; congruence. }
          rewrite Esg. apply (kfilter vrel (fun a => check_passable_kwarg a (rs_sig r))), shape_rel, Hb.
        - intros a [e ->]. eexists. split; [reflexivity|]. exists e. reflexivity.
        - intros x y Hxy. destruct x as [x|e]; [|apply sim_err]. destruct (Hxy x eq_refl) as (y' & -> & Hr). apply sim_ok; assumption. }
      intros tl tl' s3 s3' [Ht Hw] Hs3. pose proof (as_trace_rel _ _ Ht) as Ht2.
      apply (sim_mbind (dict_rel K vrel)).
      { pose proof (orel_output _ _ Hqo) as Hout. inversion Hout; subst; try apply sim_err. apply sim_lift; [|exact Hs3]. apply resample_output_rel; assumption. }
      intros c2 c2' s4 s4' Hc2 Hs4. apply (sim_mbind (fun _ _ => True)); [apply update_rel; [exact Hs4|apply orel_trace, Hqo|exact Ht2]|]. intros _ _ s5 s5' _ Hs5.
      apply (sim_mbind orel).
      { apply sim_lift; [|exact Hs5]. apply add_loss_rel; [intros; apply res_rel_ok; assumption|exact Hl|exact Hqo|].
        constructor; try exact I; try assumption; constructor. exact Hc2. }
      intros x x' s6 s6' Hx Hs6. apply sim_ok; [|exact Hs6]. rewrite (truthy_rel _ _ (br_debug _ _ Hb)). apply add_subs_rel; [two|exact Hx].
    - apply (sim_mbind bound_rel); [apply sim_lift; [apply bind_call_rel; assumption|exact Hs]|]. intros b b' s1 s1' Hb Hs1.
      pose proof (resolve_rel _ _ _ _ (op_ix _ _ _ Ho) (br_ix _ _ Hb)) as Hi.
      assert (HcK : called K (inf_kwargs b (resolve_ix (in_ix o) (b_ix b)) ++ b_shared b)) by (split; [apply Hb|exact (br_call _ _ Hb)]).
      assert (Hkw : krel (inf_kwargs b (resolve_ix (in_ix o) (b_ix b)) ++ b_shared b) (inf_kwargs b' (resolve_ix (in_ix o') (b_ix b')) ++ b_shared b')) by (apply kapp; [apply inf_kwargs_rel; assumption|apply Hb]).
      apply (sim_mbind srel); [apply sim_get, Hs1|]. intros s0 s0' s2 s2' Hs0 Hs2. pose proof (sr_conds _ _ _ Hs0 oid) as Hcond.
      apply (sim_mbind (fun a b => orel (fst a) (fst b) /\ orel (snd a) (snd b))).
      { rewrite (oid_rel _ _ Hp), (oid_rel _ _ Hf). apply sim_subst; [exact Hcond|exact Hs2|]. intros s3 s3' Hs3. apply sim_subst; [exact Hcond|exact Hs3|]. intros s4 s4' Hs4.
        apply (sim_mbind orel); [apply mdispatch_rel; [exact Hp|apply HcK|exact Hkw|]; intros a' Ha; apply IHp; assumption|]. intros po po' s5 s5' Hpo Hs5.
        apply (sim_mbind orel); [apply mdispatch_rel; [exact Hf|apply HcK|exact Hkw|]; intros a' Ha; apply IHf; [assumption|apply orel_output, Hpo|assumption..]|]. intros fo fo' s6 s6' Hfo Hs6.
        apply sim_ok; [split; assumption|exact Hs6]. }
      intros [po fo] [po' fo'] s3 s3' [Hpo Hfo] Hs3. cbn [fst snd] in Hpo, Hfo. pose proof (orel_trace _ _ Hpo) as Hpt. pose proof (orel_trace _ _ Hfo) as Hft.
      apply (sim_mbind srel); [apply sim_get, Hs3|]. intros s4 s4' s5 s5' Hs4 Hs5. apply (sim_mbind (fun _ _ => True)).
      { pose proof (sr_conds _ _ _ Hs4 oid) as Hc4. destruct (get_cond oid s4), (get_cond oid s4'); cbn in Hc4; try tauto.
        - apply sim_massert; [|exact Hs5]. intros E. erewrite forallb_rel; [exact E| |exact Hft]. intros a r r' Hr. cbn. rewrite (observed_rel _ _ Hr). reflexivity.
        - destruct (eq_zero L (out_lw fo)) as [[|]|e] eqn:Ez; [|apply sim_err..]. rewrite (rs_eq_zero K RK _ _ (orel_lw _ _ Hfo) Ez).
          apply (sim_mbind eq); [apply sim_ok; [reflexivity|exact Hs5]|]. intros z z' s6 s6' <- Hs6.
          apply (sim_mbind (fun _ _ => True)); [apply sim_massert; [tauto|exact Hs6]|]. intros _ _ s7 s7' _ Hs7.
          apply sim_massert; [|exact Hs7]. intros E. erewrite forallb_rel; [exact E| |exact Hft]. intros a r r' Hr. cbn. rewrite (observed_rel _ _ Hr), (reused_rel _ _ Hr). reflexivity. }
      intros _ _ s6 s6' _ Hs6. apply (sim_mbind (fun _ _ => True)).
      { apply sim_massert; [|exact Hs6]. rewrite (dkeys_rel _ _ _ Hpt), (dkeys_rel _ _ _ Hft), sinter_rn, empty_rel. tauto. }
      intros _ _ s7 s7' _ Hs7. apply (sim_mbind (r_weight K)).
      { apply sim_lift; [|exact Hs7]. rewrite (latent_rel _ _ Hft). apply lj_rel; try apply Hb. exact Hft. }
      intros u u' s8 s8' Hu Hs8. apply (sim_mbind trel); [apply sim_lift; [apply copytraces_rel; [intros; reflexivity|constructor; [exact Hpt|constructor; [exact Hft|constructor]]]|exact Hs8]|].
      intros tr tr' s9 s9' Htr Hs9. apply (sim_mbind orel).
      { apply sim_lift; [|exact Hs9]. apply add_loss_rel; [apply (op_loss _ _ _ Ho)|apply (op_loss0 _ _ _ Ho)|exact Hpo|].
        constructor; try exact I; try assumption; [apply (rs_add K RK); [apply orel_lw, Hpo|exact Hu]|apply orel_output, Hfo| |constructor].
        split; [apply (dkeys_rel (rv_rel K)), Hpt|apply orel_output, Hpo]. }
      intros x x' sa sa' Hx Hsa. apply sim_ok; [|exact Hsa]. rewrite (truthy_rel _ _ (br_debug _ _ Hb)), (op_debug _ _ _ Ho). apply add_subs_rel; [two|exact Hx].
    - apply (sim_mbind bound_rel); [apply sim_lift; [apply bind_call_rel; assumption|exact Hs]|]. intros b b' s1 s1' Hb Hs1.
      pose proof (resolve_rel _ _ _ _ (op_ix _ _ _ Ho) (br_ix _ _ Hb)) as Hi.
      assert (HcK : called K (inf_kwargs b (resolve_ix (in_ix o) (b_ix b)) ++ b_shared b)) by (split; [apply Hb|exact (br_call _ _ Hb)]).
      assert (Hkw : krel (inf_kwargs b (resolve_ix (in_ix o) (b_ix b)) ++ b_shared b) (inf_kwargs b' (resolve_ix (in_ix o') (b_ix b')) ++ b_shared b')) by (apply kapp; [apply inf_kwargs_rel; assumption|apply Hb]).
      apply (sim_mbind orel); [apply mdispatch_rel; [exact H1|apply HcK|exact Hkw|]; intros a' Ha; apply IH1; assumption|]. intros o1 o1' s2 s2' Ho1 Hs2.
      apply (sim_mbind orel); [apply mdispatch_rel; [exact H2|apply HcK|exact Hkw|]; intros a' Ha; apply IH2; [assumption|apply orel_output, Ho1|assumption..]|]. intros o2 o2' s3 s3' Ho2 Hs3.
      pose proof (orel_trace _ _ Ho1) as Ht1. pose proof (orel_trace _ _ Ho2) as Ht2.
      apply (sim_mbind trel); [apply sim_lift; [apply copytraces_rel; [intros; reflexivity|constructor; [exact Ht2|constructor; [exact Ht1|constructor]]]|exact Hs3]|].
      intros tr tr' s4 s4' Htr Hs4. apply (sim_mbind (fun _ _ => True)).
      { apply sim_massert; [|exact Hs4]. rewrite (dkeys_rel _ _ _ Ht1), (dkeys_rel _ _ _ Ht2), sinter_rn, empty_rel. tauto. }
      intros _ _ s5 s5' _ Hs5. apply (sim_mbind orel).
      { apply sim_lift; [|exact Hs5]. apply add_loss_rel; [apply (op_loss _ _ _ Ho)|apply (op_loss0 _ _ _ Ho)|exact Ho1|].
        constructor; try exact I; try assumption; [apply (rs_add K RK); apply orel_lw; assumption|apply orel_output, Ho2|constructor]. }
      intros x x' sa sa' Hx Hsa. apply sim_ok; [|exact Hsa]. rewrite (truthy_rel _ _ (br_debug _ _ Hb)), (op_debug _ _ _ Ho). apply add_subs_rel; [two|exact Hx].
    - apply (sim_mbind (fun _ _ => True)). { apply sim_massert; [|exact Hs]. replace (is_compose p') with (is_compose p) by (destruct Hp; reflexivity). tauto. }
      intros _ _ s0 s0' _ Hs0. apply (sim_mbind bound_rel); [apply sim_lift; [apply bind_call_rel; assumption|exact Hs0]|]. intros b b' s1 s1' Hb Hs1.
      pose proof (resolve_rel _ _ _ _ (op_ix _ _ _ Ho) (br_ix _ _ Hb)) as Hi.
      assert (HcK : called K (inf_kwargs b (resolve_ix (in_ix o) (b_ix b)) ++ b_shared b)) by (split; [apply Hb|exact (br_call _ _ Hb)]).
      assert (Hkw : krel (inf_kwargs b (resolve_ix (in_ix o) (b_ix b)) ++ b_shared b) (inf_kwargs b' (resolve_ix (in_ix o') (b_ix b')) ++ b_shared b')) by (apply kapp; [apply inf_kwargs_rel; assumption|apply Hb]).
      apply (sim_mbind orel); [apply mdispatch_rel; [exact Hq|apply HcK|exact Hkw|]; intros a' Ha; apply IHq; assumption|]. intros qo qo' s2 s2' Hqo Hs2.
      pose proof (orel_trace _ _ Hqo) as Hqt.
      apply (sim_mbind orel). { rewrite (oid_rel _ _ Hp). apply sim_subst; [exact Hqt|exact Hs2|]. intros s3 s3' Hs3. apply mdispatch_rel; [exact Hp|apply HcK|exact Hkw|]. intros a' Ha. apply IHp; assumption. }
      intros po po' s3 s3' Hpo Hs3. pose proof (orel_trace _ _ Hpo) as Hpt.
      apply (sim_mbind trel); [apply sim_lift; [apply transf_rel_apply; [exact Htf|exact Hqt|apply inf_kwargs_rel; assumption]|exact Hs3]|]. intros qt qt' s4 s4' Hqt2 Hs4.
      assert (En : sdiff (dkeys (out_trace qo')) (sdiff (latent_addrs (out_trace qo')) (latent_addrs (out_trace po'))) = map rn (sdiff (dkeys (out_trace qo)) (sdiff (latent_addrs (out_trace qo)) (latent_addrs (out_trace po))))).
      { rewrite (dkeys_rel _ _ _ Hqt), (latent_rel _ _ Hqt), (latent_rel _ _ Hpt), !sdiff_rn. reflexivity. }
      apply (sim_mbind (r_weight K)). { apply sim_lift; [|exact Hs4]. rewrite En. apply lj_rel; try apply Hb. exact Hqt2. }
      intros u u' s5 s5' Hu Hs5.
      assert (Hlv : r_weight K (tsub L (out_lw po) u) (tsub L' (out_lw po') u')) by (apply (rs_sub K RK); [apply orel_lw, Hpo|exact Hu]).
      assert (Hlw : r_weight K (tadd L (out_lw qo) (tsub L (out_lw po) u)) (tadd L' (out_lw qo') (tsub L' (out_lw po') u'))) by (apply (rs_add K RK); [apply orel_lw, Hqo|exact Hlv]).
      apply (sim_mbind (fun a b => vrel (fst a) (fst b) /\ trel (snd a) (snd b))); [apply sim_lift; [apply marginalize_rel; assumption|exact Hs5]|].
      intros [mo mt] [mo' mt'] s6 s6' [Hmo Hmt] Hs6. cbn [fst snd] in Hmo, Hmt.
      apply (sim_mbind trel). { apply sim_lift; [|exact Hs6]. destruct nr; [apply res_rel_ok, Hmt|apply rerun_rel, Hmt]. }
      intros tr tr' s7 s7' Htr Hs7. apply (sim_mbind (r_weight K)).
      { destruct (is_tensor L (tadd L (out_lw qo) (tsub L (out_lw po) u))) eqn:E; [|apply sim_err]. rewrite (rs_tensor K RK _ _ Hlw E). apply sim_ok; [apply (rs_detach_w K RK), Hlw|exact Hs7]. }
      intros w w' s8 s8' Hw Hs8.
      apply (sim_mbind trel); [apply sim_lift; [apply copytraces_rel; [intros; reflexivity|constructor; [exact Hqt|constructor]]|exact Hs8]|]. intros pt pt' s9 s9' Hpt2 Hs9.
      apply (sim_mbind trel); [apply sim_lift; [apply copytraces_rel; [intros; reflexivity|constructor; [exact Hpt|constructor]]|exact Hs9]|]. intros tt0 tt0' sa sa' Htt Hsa.
      apply (sim_mbind (opt_rel trel)); [apply sim_lift; [apply forward_trace_rel; assumption|exact Hsa]|]. intros fw fw' sb sb' Hfw Hsb.
      apply (sim_mbind orel).
      { apply sim_lift; [|exact Hsb]. apply add_loss_rel; [apply (op_loss _ _ _ Ho)|apply (op_loss0 _ _ _ Ho)|exact Hqo|].
        constructor; try exact I; try assumption; [apply detach_output_rel, Hmo| |constructor].
        constructor; cbn; try assumption. apply (rs_px K RK), orel_lw, Hqo. }
      intros x x' sc sc' Hx Hsc. apply sim_ok; [|exact Hsc]. rewrite (truthy_rel _ _ (br_debug _ _ Hb)), (op_debug _ _ _ Ho). apply add_subs_rel; [two|exact Hx].
  Qed.

  (** on paths *)
  Lemma mirrors_path {A B} (F : A -> Prop) (R : A -> B -> Prop) t t' : mirrors K F R t t' -> forall ds a vs, path t ds a -> ~ F a ->
    Forall2 (fun dv v' => drawn_rel K (fst dv) (snd dv) v') ds vs ->
    exists ds' b, map snd ds' = vs /\ path t' ds' b /\ Forall2 (fun dv dv' => kind_rel K (fst dv) (fst dv')) ds ds' /\ R a b.
  Proof.
    induction 1 as [a t' Ha|a b Hab|d d' k k' Hd H IH]; intros ds x vs Hp Hn Hv; inversion Hp; subst.
    - contradiction.
    - inversion Hv; subst. exists [], b. repeat split; try constructor. exact Hab.
    - inversion Hv as [|? v' ? vs' Hv1 Hv2]; subst. cbn [fst snd] in Hv1.
      match goal with H0 : path (k _) _ _ |- _ => destruct (IH _ _ Hv1 _ _ _ H0 Hn Hv2) as (ds' & b & E & Hp' & Hk & Hr) end.
      exists ((d', v') :: ds'), b. split; [cbn; rewrite E; reflexivity|]. split; [constructor; exact Hp'|]. split; [constructor; [exact Hd|exact Hk]|exact Hr].
  Qed.
End Natural.
