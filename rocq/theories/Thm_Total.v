(** Well-formed inference programs run to the end (property C60). *)
From Verif Require Export SpecTotal Thm_Resampled.
From Verif Require Import SpecGibbs Thm_Gibbs Thm_Sweeps.
Open Scope nat_scope.

Lemma filter_all_true {A} (f : A -> bool) l : (forall x, In x l -> f x = true) -> filter f l = l.
Proof. induction l as [|x l IH]; intros H; cbn; [reflexivity|]. rewrite (H x (or_introl eq_refl)), IH; [reflexivity|]. intros y Hy. apply H. right. exact Hy. Qed.
Lemma filter_all_false {A} (f : A -> bool) l : (forall x, In x l -> f x = false) -> filter f l = [].
Proof. induction l as [|x l IH]; intros H; cbn; [reflexivity|]. rewrite (H x (or_introl eq_refl)). apply IH. intros y Hy. apply H. right. exact Hy. Qed.

Section Total.
  Context {L : lib} (S : sorts L).
  Notation T := (T L). Notation pyval := (pyval T). Notation trace := (trace L). Notation model := (model L). Notation out := (out L).

  Definition surely {A} (t : stree L A) (P : A -> Prop) : Prop := forall a, reaches S t a -> P a.
  Lemma surely_leaf {A} (a : A) (P : A -> Prop) : P a -> surely (Leaf a) P.
  Proof. intros H b Hb. inversion Hb; subst. exact H. Qed.
  Lemma surely_draw {A} d (k : T -> stree L A) P : (forall v, drawable S d v -> surely (k v) P) -> surely (Draw d k) P.
  Proof. intros H a Ha. inversion Ha; subst. eapply H; eassumption. Qed.
  Lemma reaches_tbind {A B} (t : stree L A) (f : A -> stree L B) b : reaches S (tbind t f) b -> exists a, reaches S t a /\ reaches S (f a) b.
  Proof.
    induction t as [a|d k IH]; cbn [tbind]; intros H; [exists a; split; [constructor|exact H]|].
    inversion H; subst. match goal with H : reaches S (tbind (k ?v) f) b |- _ => destruct (IH v H) as (a & Ha & Hb) end.
    exists a. split; [econstructor; eassumption|exact Hb].
  Qed.
  Lemma surely_tbind {A B} (t : stree L A) (f : A -> stree L B) P : surely t (fun a => surely (f a) P) -> surely (tbind t f) P.
  Proof. intros H b Hb. apply reaches_tbind in Hb. destruct Hb as (a & Ha & Hb). exact (H a Ha b Hb). Qed.
  Lemma surely_impl {A} (t : stree L A) (P Q : A -> Prop) : surely t P -> (forall a, reaches S t a -> P a -> Q a) -> surely t Q.
  Proof. intros H HPQ a Ha. apply HPQ; [exact Ha|]. apply H, Ha. Qed.
  Lemma reaches_outcome {A} (t : stree L A) a : reaches S t a -> outcome t a.
  Proof. induction 1; econstructor; eassumption. Qed.
  Lemma reaches_teq {A} (t t' : stree L A) a : teq t t' -> reaches S t a -> reaches S t' a.
  Proof.
    intros E H. revert t' E. induction H as [a|d k v a Hv Ha IH]; intros t' E; inversion E; subst; [constructor|].
    econstructor; [exact Hv|]. apply IH. match goal with H : forall v, same_draws eq (k v) _ |- _ => apply H end.
  Qed.
  Lemma surely_teq {A} (t t' : stree L A) P : teq t t' -> surely t' P -> surely t P.
  Proof. intros E H a Ha. apply H. eapply reaches_teq; eassumption. Qed.

  (** *** models *)
  Lemma fine_and (Q Q' : list (string * bool) -> pyval -> Prop) l m : fine S Q l m -> fine S Q' l m -> fine S (fun l o => Q l o /\ Q' l o) l m.
  Proof.
    induction 1 as [l o HQ|l a d rep k Hn Hk IH|l a d v rep k Hn Hv Hk IH|l d rep sh k Hk IH|l key k Hk IH|l key x k Hk IH];
      intros H'; inversion H'; subst; constructor; auto.
  Qed.
  Definition matches (cond : option trace) (l : list (string * bool)) (tr : trace) : Prop :=
    NoDup (map fst l) /\
    Forall2 (fun ab ar => fst ab = fst ar /\ good_node S (snd ar) /\ is_observed (snd ar) = snd ab /\
                          (cond = None -> is_reused (snd ar) = false)) l tr.
  Lemma matches_keys cond l tr : matches cond l tr -> dkeys tr = map fst l.
  Proof. intros [_ H]. unfold dkeys. induction H as [|[a b] [a' r] l tr [E _] _ IH]; cbn in *; congruence. Qed.
  Lemma matches_add cond l tr a b r : matches cond l tr -> ~ In a (map fst l) -> good_node S r -> is_observed r = b ->
    (cond = None -> is_reused r = false) -> matches cond (l ++ [(a, b)]) (tr ++ [(a, r)]).
  Proof.
    intros [Hn Hf] Ha Hg Ho Hr. split.
    - rewrite map_app. cbn [map fst]. apply (Permutation_NoDup (Permutation_cons_append _ _)). constructor; assumption.
    - apply Forall2_app; [exact Hf|]. constructor; [|constructor]. cbn. auto.
  Qed.
  Definition good_cond (cond : option trace) : Prop := forall ct, cond = Some ct -> good_trace S ct.

  Context {given : dict pyval} (SL : sorts_laws S (kwarg "sample_dims" VNone given) (kwarg "batch_dim" VNone given)).

  Lemma good_new d v p rep : value S v -> good_node S (mkRV (Proper d) v (logp L d v) p rep true).
  Proof. intros Hv. split; [exact Hv|]. split; [apply (so_logp _ _ _ SL), Hv|eexists; reflexivity]. Qed.
  Lemma exec_fine cond Q l m : good_cond cond -> fine S Q l m -> forall tr s, matches cond l tr ->
    surely (exec cond m tr s) (fun x => exists v tr' l', fst x = Ok (v, tr') /\ Q l' v /\ matches cond l' tr').
  Proof.
    intros Hc. induction 1 as [l o HQ|l a d rep k Hn Hk IH|l a d v rep k Hn Hv Hk IH|l d rep sh k Hk IH|l key k Hk IH|l key x k Hk IH]; intros tr s Hm; cbn [exec].
    - apply surely_leaf. exists o, tr, l. auto.
    - assert (Ha : ~ In a (dkeys tr)) by (rewrite (matches_keys _ _ _ Hm); exact Hn).
      assert (F : forall v p s, value S v -> is_observed (mkRV (Proper d) v (logp L d v) p rep true) = false ->
          (cond = None -> p = SAMPLED) ->
          surely (mbind (lift (add_node a (mkRV (Proper d) v (logp L d v) p rep true) tr)) (fun tr' => exec cond (k v) tr') s)
            (fun x => exists v tr' l', fst x = Ok (v, tr') /\ Q l' v /\ matches cond l' tr')).
      { intros v p s' Hv Ho Hr. rewrite mbind_lift. unfold add_node. rewrite (proj2 (dmem_not_In _ _) Ha), (dset_new _ _ _ Ha).
        apply IH; [exact Hv|]. apply matches_add; try assumption; [apply good_new, Hv|]. intros Hcn. unfold is_reused. cbn. rewrite (Hr Hcn). reflexivity. }
      destruct cond as [ct|].
      + destruct (dget a ct) as [r0|] eqn:E.
        * apply F; [|reflexivity|discriminate]. destruct (Hc ct eq_refl) as [_ Hg]. apply (Hg a r0), dget_In, E.
        * apply surely_draw. intros v Hv. apply F; [eapply (so_draw _ _ _ SL), Hv|reflexivity|discriminate].
      + apply surely_draw. intros v Hv. apply F; [eapply (so_draw _ _ _ SL), Hv|reflexivity|reflexivity].
    - assert (Ha : ~ In a (dkeys tr)) by (rewrite (matches_keys _ _ _ Hm); exact Hn).
      rewrite mbind_lift. unfold add_node. rewrite (proj2 (dmem_not_In _ _) Ha), (dset_new _ _ _ Ha).
      apply IH, matches_add; try assumption; [apply good_new, Hv|reflexivity|reflexivity].
    - apply surely_draw. intros v Hv. apply IH; assumption.
    - apply IH, Hm.
    - apply IH, Hm.
  Qed.

  (** *** log_joint *)
  Lemma log_joint_sorted rep nodes (tr : trace) : good_trace S tr ->
    exists x, log_joint (kwarg "sample_dims" VNone given) (kwarg "batch_dim" VNone given) rep nodes tr = Ok x /\
      (weight S x \/ float S x) /\ (forall a, In a nodes -> In a (dkeys tr) -> weight S x) /\
      (nodes = [] -> x = tzero L).
  Proof.
    intros [Hwf Hg]. unfold log_joint.
    assert (Hord : forall a, In a nodes <-> In a (order L nodes)).
    { intros a. split; apply Permutation_in; [symmetry|]; apply (so_order _ _ _ SL). }
    assert (G : forall ns acc, weight S acc \/ float S acc ->
       exists x, log_joint_from (kwarg "sample_dims" VNone given) (kwarg "batch_dim" VNone given) rep ns tr acc = Ok x /\ (weight S x \/ float S x) /\
         (weight S acc \/ (exists a, In a ns /\ In a (dkeys tr)) -> weight S x)).
    { induction ns as [|n ns IH]; intros acc Ha; cbn [log_joint_from].
      - exists acc. split; [reflexivity|]. split; [exact Ha|]. intros [H|(a & [] & _)]. exact H.
      - destruct (dget n tr) as [r|] eqn:E.
        + rewrite (so_joint _ _ _ SL).
          assert (Hb : weight S (bsum L (kwarg "sample_dims" VNone given) (kwarg "batch_dim" VNone given) (rv_logp r))).
          { apply (so_sum _ _ _ SL), (Hg n r), dget_In, E. }
          assert (Hw : weight S (tadd L acc (bsum L (kwarg "sample_dims" VNone given) (kwarg "batch_dim" VNone given) (rv_logp r)))).
          { destruct Ha as [Ha|Ha]; [apply (so_add _ _ _ SL); assumption|apply (so_add_float _ _ _ SL); assumption]. }
          destruct (IH _ (or_introl Hw)) as (x & Ex & Hx & Hx'). exists x. split; [exact Ex|]. split; [exact Hx|]. intros _. apply Hx'. left. exact Hw.
        + destruct (IH acc Ha) as (x & Ex & Hx & Hx'). exists x. split; [exact Ex|]. split; [exact Hx|]. intros [H|(a & [<-|Hin] & Hk)].
          * apply Hx'. left. exact H.
          * apply In_dkeys in Hk. destruct Hk as [w Hw]. congruence.
          * apply Hx'. right. exists a. auto. }
    destruct (G (order L nodes) (tzero L)) as (x & Ex & Hx & Hx'); [right; apply (so_zero _ _ _ SL)|].
    exists x. split; [exact Ex|]. split; [exact Hx|]. split.
    - intros a Ha Hk. apply Hx'. right. exists a. split; [apply Hord, Ha|exact Hk].
    - intros ->. assert (E : order L [] = []) by (apply Permutation_nil; symmetry; apply (so_order _ _ _ SL)).
      rewrite E in Ex. cbn in Ex. congruence.
  Qed.

  Lemma add_sorted x y : weight S x \/ float S x -> weight S y \/ float S y ->
    (weight S (tadd L x y) \/ float S (tadd L x y)) /\ (weight S x \/ weight S y -> weight S (tadd L x y)).
  Proof.
    intros [Hx|Hx] [Hy|Hy].
    - pose proof (so_add _ _ _ SL _ _ Hx Hy). auto.
    - pose proof (proj1 (so_add_float _ _ _ SL _ _ Hx Hy)). auto.
    - pose proof (proj2 (so_add_float _ _ _ SL _ _ Hy Hx)). auto.
    - pose proof (so_add_floats _ _ _ SL _ _ Hx Hy). split; [auto|]. intros [H'|H'].
      + exact (proj1 (so_add_float _ _ _ SL _ _ H' Hy)).
      + exact (proj2 (so_add_float _ _ _ SL _ _ H' Hx)).
  Qed.
  Lemma sub_sorted x y : weight S x \/ float S x -> weight S y \/ float S y ->
    (weight S (tsub L x y) \/ float S (tsub L x y)) /\ (weight S x \/ weight S y -> weight S (tsub L x y)).
  Proof.
    intros [Hx|Hx] [Hy|Hy].
    - pose proof (so_sub _ _ _ SL _ _ Hx Hy). auto.
    - pose proof (proj1 (so_sub_float _ _ _ SL _ _ Hx Hy)). auto.
    - pose proof (proj2 (so_sub_float _ _ _ SL _ _ Hy Hx)). auto.
    - pose proof (so_sub_floats _ _ _ SL _ _ Hx Hy). split; [auto|]. intros [H'|H'].
      + exact (proj1 (so_sub_float _ _ _ SL _ _ H' Hy)).
      + exact (proj2 (so_sub_float _ _ _ SL _ _ H' Hx)).
  Qed.

  (** *** states and calls *)
  Definition fit (s : st L) : Prop :=
    (forall i ct, get_cond i s = Some ct -> good_trace S ct) /\ forall d tr tr2, exists d', hook s d tr tr2 = Ok d'.
  Lemma fit_wf s : fit s -> wf_st s.
  Proof. intros [H _] i t E. apply (H i t E). Qed.
  Lemma fit_run t c kws s x : fit s -> reaches S (run t c kws s) x -> fit (snd x).
  Proof.
    intros [H1 H2] Hx. destruct x as [r s']. apply reaches_outcome in Hx. pose proof (run_cond _ _ _ _ _ _ _ Hx) as Hc.
    apply run_scoped in Hx. destruct Hx as (_ & _ & Hh). cbn [snd]. split; [|rewrite Hh; exact H2].
    intros i ct E. destruct (Hc i) as [E'|[E' _]]; rewrite E' in E; [|discriminate]. eapply H1, E.
  Qed.
  Lemma fit_set i t s : fit s -> good_cond t -> fit (set_cond i t s).
  Proof.
    intros [H1 H2] Ht. split; [|exact H2]. intros j ct E. destruct (Nat.eq_dec j i) as [->|Hn].
    - rewrite get_set_same in E. apply Ht, E.
    - rewrite get_set_other in E by exact Hn. eapply H1, E.
  Qed.
  Lemma call_sub ix kws : part_of_call given kws -> part_of_call given (sub_kwargs ix kws).
  Proof.
    intros (Hp & H1 & H2 & H3 & H4). split; [apply plain_sub, Hp|]. unfold sub_kwargs.
    split; [exact H1|]. split; [exact H2|]. split; [exact H3|]. intros k Hk. rewrite <- (H4 k Hk).
    rewrite dget_app. assert (E : forall v1 v2 v3 v4 v5 : pyval, dget k [("_debug", v1); ("ix", v2); ("sample_dims", v3); ("batch_dim", v4); ("reparameterized", v5)] = None).
    { intros. apply dget_None. cbn in *. intuition congruence. }
    rewrite E. rewrite (dget_filter k (fun x => negb (mem x ["sample_dims"; "batch_dim"; "_debug"; "reparameterized"; "ix"]))).
    rewrite (proj2 (mem_not_In _ _) Hk). reflexivity.
  Qed.
  Lemma call_clash kws : part_of_call given kws -> clash ["self"; "c"; "fn"] kws = false.
  Proof. intros [Hp _]. apply plain_clash; [exact Hp|cbn; tauto]. Qed.

  (** *** what a run guarantees *)
  Definition kept (t : inf L) (k' : contract) (o : out) : Prop := exists mo mt, marginalize t o = Ok (mo, mt) /\
    good_trace S mt /\ (forall a, In a (dkeys mt) -> In a (uses k')) /\ (forall a, In a (always_latent k') -> In a (latent_addrs mt)) /\ good_output S k' mo.
  Definition done (t : inf L) (k k' : contract) (o : out) : Prop :=
    meets S k o /\ kept t k' o /\ (is_program t \/ exists f, forward_trace t o = Ok f).
  Definition ends (t : inf L) (k k' : contract) (tree : stree L (res out * st L)) : Prop :=
    surely tree (fun x => exists o, fst x = Ok o /\ done t k k' o).

  Lemma add_loss_total o (child r : out) : total_loss o -> exists l, add_loss (in_loss o) (in_loss0 o) child r = Ok (with_loss r l).
  Proof. intros H. unfold add_loss. match goal with |- context [in_loss o r ?l] => destruct (H r l) as [l' E]; rewrite E end. exists l'. reflexivity. Qed.

  Lemma matches_good cond l tr : matches cond l tr -> good_trace S tr.
  Proof.
    intros Hm. split; [unfold wf_dict; rewrite (matches_keys _ _ _ Hm); apply Hm|]. destruct Hm as [_ H].
    induction H as [|[a b] [a' r] l tr (E & Hg & _) _ IH]; intros x y; [intros []|]. intros [[= <- <-]|Hin]; [exact Hg|eapply IH, Hin].
  Qed.
  Lemma matches_In cond l tr a b : matches cond l tr -> In (a, b) l -> exists r, In (a, r) tr /\ is_observed r = b.
  Proof.
    intros [_ H]. induction H as [|[a0 b0] [a' r] l tr (E & Hg & Ho & _) _ IH]; [intros []|]. cbn [fst snd] in *. subst a'. intros [[= <- <-]|Hin].
    - exists r. split; [left; reflexivity|exact Ho].
    - destruct (IH Hin) as (r' & Hr & Ho'). exists r'. split; [right; exact Hr|exact Ho'].
  Qed.
  Lemma In_matches cond l tr a r : matches cond l tr -> In (a, r) tr -> In (a, is_observed r) l /\ (cond = None -> is_reused r = false).
  Proof.
    intros [_ H]. induction H as [|[a0 b0] [a' r0] l tr (E & Hg & Ho & Hr) _ IH]; [intros []|]. cbn [fst snd] in *. subst a' b0. intros [[= <- <-]|Hin].
    - split; [left; reflexivity|exact Hr].
    - destruct (IH Hin) as [Hi Hr']. split; [right; exact Hi|exact Hr'].
  Qed.
  Lemma latent_In (tr : trace) a : In a (latent_addrs tr) <-> exists r, In (a, r) tr /\ is_observed r = false.
  Proof.
    unfold latent_addrs. rewrite in_map_iff. split.
    - intros ([a' r] & <- & H). apply filter_In in H. destruct H as [H1 H2]. exists r. cbn in *. split; [exact H1|]. destruct (is_observed r); [discriminate|reflexivity].
    - intros (r & H1 & H2). exists (a, r). split; [reflexivity|]. apply filter_In. cbn. rewrite H2. auto.
  Qed.

  Lemma prog_surely oid sg m c kws s Q : firstn 3 (s_args sg) = ["self"; "trace"; "c"] -> part_of_call given kws -> fit s ->
    fine S Q [] (m c (prog_kwargs sg kws)) ->
    surely (run (IProg oid sg m) c kws s) (fun x => exists tr lw v l, fst x = Ok (mkOut tr lw v TyProgram None None None None []) /\
      Q l v /\ matches (get_cond oid s) l tr /\ (weight S lw \/ float S lw) /\ (forall a, In (a, true) l -> weight S lw) /\
      (get_cond oid s = None -> (forall a b, In (a, b) l -> b = false) -> lw = tzero L)).
  Proof.
    intros Hsg Hcall Hs Hf. cbn [run]. eapply surely_teq; [apply forward_eq, plain_prog; [apply Hcall|exact Hsg]|].
    apply surely_tbind. eapply surely_impl.
    - eapply (exec_fine (get_cond oid s) Q []); [intros ct E; apply (proj1 Hs oid ct E)|exact Hf|]. split; constructor.
    - intros [x s1] _ (v & tr & l & E & HQ & Hm). cbn [fst] in E. subst x. unfold after. cbn [fst snd prog_tail].
      pose proof (matches_good _ _ _ Hm) as Hg. destruct Hcall as (_ & Esd & Ebd & _).
      unfold k_sd, k_bd. rewrite Esd, Ebd.
      match goal with |- context [log_joint _ _ ?r ?n tr] => destruct (log_joint_sorted r n tr Hg) as (lw & Elw & Hlw & Hlw' & Hnil); rewrite Elw end.
      cbn [rbind]. apply surely_leaf. exists tr, lw, v, l. cbn [fst]. repeat (split; [first [reflexivity|assumption]|]). split.
      + intros a Ha. destruct (matches_In _ _ _ _ _ Hm Ha) as (r & Hr & Ho). apply (Hlw' a).
        * apply In_sdiff. split; [apply in_map_iff; exists (a, r); auto|]. intros Hin. apply In_sdiff in Hin. destruct Hin as [Hin _].
          apply latent_In in Hin. destruct Hin as (r' & Hr' & Ho'). apply (In_dget _ _ _ (proj1 Hg)) in Hr. apply (In_dget _ _ _ (proj1 Hg)) in Hr'. congruence.
        * apply in_map_iff. exists (a, r). auto.
      + intros Hc Ha. apply Hnil. rewrite Hc.
        match goal with |- ?d = [] => destruct d as [|a d'] eqn:Ed; [reflexivity|] end. exfalso.
        assert (Hin : In a (sdiff (dkeys tr) (sdiff (latent_addrs tr) []))) by (rewrite Ed; left; reflexivity).
        apply In_sdiff in Hin. destruct Hin as [Hk Hn]. apply Hn, In_sdiff. split; [|intros []]. apply latent_In.
        apply in_map_iff in Hk. destruct Hk as ([a' r] & Ea & Hk). cbn in Ea. subst a'. exists r. split; [exact Hk|].
        destruct (In_matches _ _ _ _ _ Hm Hk) as [Hi _]. apply (Ha a _ Hi).
  Qed.
  Lemma meets_prog k l v tr lw cond : model_meets S k l v -> matches cond l tr -> weight S lw \/ float S lw -> (forall a, In (a, true) l -> weight S lw) ->
    meets S k (mkOut tr lw v TyProgram None None None None []).
  Proof.
    intros (H1 & H2 & H3 & H4) Hm Hw Hw'. split; [eapply matches_good, Hm|]. cbn [out_trace out_lw out_output]. split; [|split; [|split; [split|]]].
    - intros a Ha. rewrite (matches_keys _ _ _ Hm) in Ha. apply in_map_iff in Ha. destruct Ha as ([a' b] & <- & Ha). eapply H1, Ha.
    - intros a Ha. apply H2 in Ha. destruct (matches_In _ _ _ _ _ Hm Ha) as (r & Hr & Ho). apply latent_In. eauto.
    - exact Hw.
    - intros E. destruct (H3 E) as [a Ha]. eapply Hw', Ha.
    - exact H4.
  Qed.
  Lemma kept_self t k (o : out) : is_extend t = false -> meets S k o -> kept t k o.
  Proof. intros E (H1 & H2 & H3 & _ & H4). exists (out_output o), (out_trace o). unfold marginalize. rewrite E. auto. Qed.

  Lemma total_program oid sg m k c kws s : firstn 3 (s_args sg) = ["self"; "trace"; "c"] -> part_of_call given kws -> fit s ->
    fine S (model_meets S k) [] (m c (prog_kwargs sg kws)) -> ends (IProg oid sg m) k k (run (IProg oid sg m) c kws s).
  Proof.
    intros Hsg Hcall Hs Hf. eapply surely_impl; [apply prog_surely; eassumption|].
    intros [x s1] _ (tr & lw & v & l & E & HQ & Hm & Hw & Hw' & _). cbn [fst] in *. subst x. eexists. split; [reflexivity|].
    pose proof (meets_prog _ _ _ _ _ _ HQ Hm Hw Hw') as Hmeets. split; [exact Hmeets|]. split; [apply kept_self; [reflexivity|exact Hmeets]|]. left. exact I.
  Qed.

  (** *** Compose *)
  Lemma good_app t t' : good_trace S t -> good_trace S t' -> disjoint_keys t t' -> good_trace S (t ++ t').
  Proof.
    intros [W1 G1] [W2 G2] Hd. split; [apply wf_app; assumption|]. intros a r Hin. apply in_app_or in Hin. destruct Hin as [Hin|Hin]; [eapply G1, Hin|eapply G2, Hin].
  Qed.
  Lemma latent_app (t t' : trace) : latent_addrs (t ++ t') = latent_addrs t ++ latent_addrs t'.
  Proof. unfold latent_addrs. rewrite filter_app, map_app. reflexivity. Qed.

  Lemma compose_tail_total oid q2 q1 o kws k1 k2 (o1 o2 : out) : total_loss o -> separate k2 k1 -> meets S k1 o1 -> meets S k2 o2 ->
    let k := mkContract (uses k1 ++ uses k2) (always_latent k1 ++ always_latent k2) (has_weight k1 || has_weight k2) (dict_output k2) in
    exists r, compose_tail o kws o1 o2 = Ok r /\ done (ICompose oid q2 q1 o) k k r.
  Proof.
    intros Hl Ha (G1 & U1 & S1 & W1 & O1) (G2 & U2 & S2 & W2 & O2) k. unfold compose_tail.
    assert (Hd : disjoint_keys (out_trace o2) (out_trace o1)) by (intros a H2 H1; apply (Ha a); auto).
    rewrite copytraces_two_disjoint by (first [apply G1|apply G2|exact Hd]). cbn [rbind].
    rewrite (proj2 (sinter_nil _ _) Hd).
    match goal with |- context [add_loss (in_loss o) (in_loss0 o) o1 ?r] => destruct (add_loss_total o o1 r Hl) as [l El]; rewrite El end. cbn [rbind].
    eexists. split; [reflexivity|].
    match goal with |- done _ _ _ (add_subs ?d ?sb ?x) => pose proof (sd_fields L d sb x) as (F1 & F2 & F3 & F4 & _) end.
    assert (Hmeets : meets S k (add_subs (truthy (k_debug kws) || in_debug o) [("q1_out", o1); ("q2_out", o2)]
        (with_loss (mkOut (out_trace o2 ++ out_trace o1) (tadd L (out_lw o1) (out_lw o2)) (out_output o2) TyCompose (Some (resolve_ix (in_ix o) (k_ix kws))) None None None []) l))).
    { unfold meets. rewrite F1, F2, F3. cbn [with_loss out_trace out_lw out_output k uses always_latent has_weight dict_output].
      split; [apply good_app; assumption|]. split; [|split; [|split]].
      - intros a Hk. rewrite dkeys_app in Hk. apply in_or_app. apply in_app_or in Hk. destruct Hk as [Hk|Hk]; [right; apply U2, Hk|left; apply U1, Hk].
      - intros a Hk. rewrite latent_app. apply in_or_app. apply in_app_or in Hk. destruct Hk as [Hk|Hk]; [right; apply S1, Hk|left; apply S2, Hk].
      - destruct (add_sorted _ _ (proj1 W1) (proj1 W2)) as [A1 A2]. split; [exact A1|]. cbn [has_weight k]. intros E. apply orb_true_iff in E. apply A2.
        destruct E as [E|E]; [left; apply W1, E|right; apply W2, E].
      - exact O2. }
    split; [exact Hmeets|]. split; [apply kept_self; [reflexivity|exact Hmeets]|]. right.
    unfold forward_trace. cbn [debug_attr rbind]. destruct (in_debug o) eqn:Eb; [|eauto]. rewrite F4. cbn [with_loss out_type].
    rewrite orb_true_r. eexists. reflexivity.
  Qed.

  (** *** Extend *)
  Lemma extend_tail_total oid p f o kws cond kp kf (po fo : out) : total_loss o -> part_of_call given kws -> separate kf kp -> meets S kp po -> meets S kf fo ->
    (forall a r, In (a, r) (out_trace fo) -> is_observed r = false) ->
    (cond = None -> out_lw fo = tzero L /\ forall a r, In (a, r) (out_trace fo) -> is_reused r = false) ->
    exists r, extend_tail o kws cond po fo = Ok r /\ done (IExtend oid p f o)
      (mkContract (uses kp ++ uses kf) (always_latent kp ++ always_latent kf) (has_weight kp || negb (length (always_latent kf) =? 0)) (dict_output kf)) kp r.
  Proof.
    intros Hl Hcall Ha (Gp & Up & Sp & Wp & Op) (Gf & Uf & Sf & Wf & Of) Hobs Hcond. unfold extend_tail.
    match goal with |- context [rbind ?chk _] => assert (E : chk = Ok tt) end.
    { destruct cond as [ct|].
      - rewrite (proj2 (forallb_forall _ _)); [reflexivity|]. intros [a r] Hin. cbn. rewrite (Hobs a r Hin). reflexivity.
      - destruct (Hcond eq_refl) as [-> Hr]. rewrite (so_compare _ _ _ SL). cbn [rbind].
        rewrite (proj2 (forallb_forall _ _)); [reflexivity|]. intros [a r] Hin. cbn. rewrite (Hobs a r Hin), (Hr a r Hin). reflexivity. }
    rewrite E. cbn [rbind]. clear E.
    assert (Hd : disjoint_keys (out_trace fo) (out_trace po)) by (intros a H2 H1; apply (Ha a); auto).
    rewrite (proj2 (sinter_nil _ _) Hd). destruct Hcall as (_ & Esd & Ebd & _). unfold k_sd, k_bd. rewrite Esd, Ebd.
    match goal with |- context [log_joint _ _ ?r ?n ?tr] => destruct (log_joint_sorted r n tr Gf) as (lu & Elu & Hlu & Hlu' & _); rewrite Elu end. cbn [rbind].
    assert (Hd' : disjoint_keys (out_trace po) (out_trace fo)) by (intros a H1 H2; exact (Hd a H2 H1)).
    rewrite copytraces_two_disjoint by (first [apply Gp|apply Gf|exact Hd']). cbn [rbind].
    match goal with |- context [add_loss (in_loss o) (in_loss0 o) po ?r] => destruct (add_loss_total o po r Hl) as [l El]; rewrite El end. cbn [rbind].
    eexists. split; [reflexivity|].
    match goal with |- done _ _ _ (add_subs ?d ?sb ?x) => pose proof (sd_fields L d sb x) as (F1 & F2 & F3 & F4 & _);
      assert (F5 : out_marginal (add_subs d sb x) = Some (dkeys (out_trace po), out_output po)) by (destruct d; reflexivity) end.
    split; [|split].
    - unfold meets. rewrite F1, F2, F3. cbn [with_loss out_trace out_lw out_output uses always_latent has_weight dict_output].
      split; [apply good_app; assumption|]. split; [|split; [|split]].
      + intros a Hk. rewrite dkeys_app in Hk. apply in_or_app. apply in_app_or in Hk. destruct Hk as [Hk|Hk]; [left; apply Up, Hk|right; apply Uf, Hk].
      + intros a Hk. rewrite latent_app. apply in_or_app. apply in_app_or in Hk. destruct Hk as [Hk|Hk]; [left; apply Sp, Hk|right; apply Sf, Hk].
      + destruct (add_sorted _ _ (proj1 Wp) Hlu) as [A1 A2]. split; [exact A1|]. cbn [has_weight]. intros E. apply orb_true_iff in E. apply A2.
        destruct E as [E|E]; [left; apply Wp, E|right]. destruct (always_latent kf) as [|a ks] eqn:Ek; [discriminate|].
        assert (Hin : In a (latent_addrs (out_trace fo))) by (apply Sf; left; reflexivity).
        apply (Hlu' a Hin). apply latent_In in Hin. destruct Hin as (r & Hr & _). apply in_map_iff. exists (a, r). auto.
      + exact Of.
    - exists (out_output po), (out_trace po). unfold marginalize. cbn [is_extend]. rewrite F5, F1. cbn [with_loss out_trace].
      split; [|auto]. rewrite copytraces_filter by (apply wf_app; first [apply Gp|apply Gf|exact Hd']). cbn [rmap]. f_equal. f_equal.
      rewrite filter_app. match goal with |- filter ?f ?a ++ filter ?g ?b = _ => assert (E1 : filter f a = a); [|assert (E2 : filter g b = []); [|rewrite E1, E2, app_nil_r; reflexivity]] end.
      + apply filter_all_true. intros [a r] Hin. apply negb_true_iff, mem_not_In. intros Hm. apply In_sdiff in Hm. apply Hm. apply in_map_iff. exists (a, r). auto.
      + apply filter_all_false. intros [a r] Hin. apply negb_false_iff, mem_In, In_sdiff. cbn [fst].
        assert (Hk : In a (dkeys (out_trace fo))) by (apply in_map_iff; exists (a, r); auto).
        split; [rewrite dkeys_app; apply in_or_app; right; exact Hk|exact (Hd a Hk)].
    - right. unfold forward_trace. cbn [debug_attr rbind]. rewrite F4. cbn [with_loss out_type]. destruct (in_debug o); eauto.
  Qed.

  (** *** Propose *)
  Lemma rerun_good (tr : trace) : good_trace S tr ->
    exists tr', rerun_with_detached_values tr = Ok tr' /\ good_trace S tr' /\ dkeys tr' = dkeys tr /\ latent_addrs tr' = latent_addrs tr.
  Proof.
    intros [Hw Hg]. unfold rerun_with_detached_values.
    assert (G : forall items acc, wf_dict (acc ++ items) -> (forall a r, In (a, r) acc -> good_node S r) -> (forall a r, In (a, r) items -> good_node S r) ->
      exists t, rerun_items items acc = Ok (acc ++ t) /\ dkeys t = dkeys items /\ latent_addrs t = latent_addrs items /\ forall a r, In (a, r) t -> good_node S r).
    { induction items as [|[k r] items IH]; intros acc Hwf Ha Hi; cbn [rerun_items].
      - exists []. rewrite app_nil_r. split; [reflexivity|]. split; [reflexivity|]. split; [reflexivity|]. intros ? ? [].
      - destruct (Hi k r (or_introl eq_refl)) as (Gv & Gl & d & Ed). unfold rerun_rv. rewrite Ed. cbn [rbind].
        assert (Hk : ~ In k (dkeys acc)).
        { unfold wf_dict in Hwf. rewrite dkeys_app in Hwf. cbn [dkeys map fst] in Hwf. apply NoDup_remove_2 in Hwf. intros Hin. apply Hwf, in_or_app. left. exact Hin. }
        rewrite (dset_new _ _ _ Hk).
        set (r' := mkRV (Proper d) (detach L (rv_value r)) (logp L d (detach L (rv_value r))) (rv_prov r) (rv_rep r) true).
        assert (Gr : good_node S r').
        { split; [apply (so_detach_value _ _ _ SL), Gv|]. split; [apply (so_logp _ _ _ SL), (so_detach_value _ _ _ SL), Gv|exists d; reflexivity]. }
        destruct (IH (acc ++ [(k, r')])) as (t & Et & Ek & El & Eg).
        + unfold wf_dict in *. rewrite !dkeys_app in *. cbn [dkeys map fst] in *. rewrite <- app_assoc. exact Hwf.
        + intros a x Hin. apply in_app_or in Hin. destruct Hin as [Hin|[[= <- <-]|[]]]; [eapply Ha, Hin|exact Gr].
        + intros a x Hin. apply (Hi a). right. exact Hin.
        + exists ((k, r') :: t). rewrite Et, <- app_assoc. split; [reflexivity|]. split; [cbn [dkeys map fst]; f_equal; exact Ek|]. split.
          * unfold latent_addrs in *. cbn [filter snd]. change (is_observed r') with (is_observed r). destruct (negb (is_observed r)); cbn [map fst]; [f_equal|]; exact El.
          * intros a x [[= <- <-]|Hin]; [exact Gr|eapply Eg, Hin]. }
    destruct (G tr []) as (t & Et & Ek & El & Eg); [exact Hw|intros ? ? []|exact Hg|].
    exists t. cbn [app] in Et. split; [exact Et|]. split; [split; [unfold wf_dict; rewrite Ek; exact Hw|exact Eg]|]. auto.
  Qed.
  Lemma detach_output_good k (v : pyval) : good_output S k v -> good_output S k (detach_output v).
  Proof.
    intros [Ht Hp]. split.
    - destruct v as [| | | |t|l|d|n]; try exact Ht; cbn [detach_output].
      + apply (so_detach_value _ _ _ SL), Ht.
      + apply all_tensors_dict. intros a x Hin. apply in_map_iff in Hin. destruct Hin as ([a' y] & [= <- <-] & Hin). cbn [snd].
        pose proof (proj1 (all_tensors_dict _ _) Ht _ _ Hin) as Hy. destruct y; try exact Hy. apply (so_detach_value _ _ _ SL), Hy.
    - intros ks Ek. destruct (Hp ks Ek) as (d & -> & Hd). eexists. split; [reflexivity|]. intros a x Hin.
      apply in_map_iff in Hin. destruct Hin as ([a' y] & [= <- <-] & Hin). cbn [fst snd]. destruct (Hd _ _ Hin) as [H|(t & ->)]; [left; exact H|right].
      eexists. reflexivity.
  Qed.
  Lemma propose_tail_total oid p q o nr kws kp kp' kq (qo po : out) : total_loss o -> part_of_call given kws -> meets S kq qo -> meets S kp po -> kept p kp' po ->
    (exists f, forward_trace q qo = Ok f) ->
    has_weight kp = true \/ has_weight kq = true \/ (exists a, In a (always_latent kp) /\ In a (always_latent kq)) ->
    let k := mkContract (uses kp') (always_latent kp') true (dict_output kp') in
    exists r, propose_tail o p q None nr kws qo po = Ok r /\ done (IPropose oid p q o None nr) k k r.
  Proof.
    intros Hl Hcall (Gq & Uq & Sq & Wq & Oq) (Gp & Up & Sp & Wp & Op) (mo & mt & Em & Gm & Um & Sm & Om) (fwd & Ef) Hw k.
    unfold propose_tail. cbn [apply_transf rbind]. destruct Hcall as (_ & Esd & Ebd & _). unfold k_sd, k_bd. rewrite Esd, Ebd.
    match goal with |- context [log_joint _ _ ?r ?n ?tr] => destruct (log_joint_sorted r n tr Gq) as (lu & Elu & Hlu & Hlu' & _); rewrite Elu end. cbn [rbind].
    rewrite Em. cbn [rbind fst snd].
    assert (Er : exists tr, (if nr then Ok mt else rerun_with_detached_values mt) = Ok tr /\ good_trace S tr /\ dkeys tr = dkeys mt /\ latent_addrs tr = latent_addrs mt).
    { destruct nr; [exists mt; auto|apply rerun_good, Gm]. }
    destruct Er as (tr & Er & Gt & Kt & Lt). rewrite Er. cbn [rbind].
    assert (Hlw : weight S (tadd L (out_lw qo) (tsub L (out_lw po) lu))).
    { destruct (sub_sorted _ _ (proj1 Wp) Hlu) as [B1 B2]. destruct (add_sorted _ _ (proj1 Wq) B1) as [_ A2]. apply A2. destruct Hw as [Hw|[Hw|(a & Ha & Hb)]].
      - right. apply B2. left. apply Wp, Hw.
      - left. apply Wq, Hw.
      - right. apply B2. right. apply (Hlu' a).
        + apply In_sdiff. apply Sq in Hb. apply Sp in Ha. split.
          * apply latent_In in Hb. destruct Hb as (r & Hr & _). apply in_map_iff. exists (a, r). auto.
          * intros Hin. apply In_sdiff in Hin. apply Hin, Ha.
        + apply Sq, latent_In in Hb. destruct Hb as (r & Hr & _). apply in_map_iff. exists (a, r). auto. }
    rewrite (so_tensor _ _ _ SL _ Hlw). cbn [rbind].
    rewrite !copytraces_one by (first [apply Gq|apply Gp]). cbn [rbind]. rewrite Ef. cbn [rbind].
    match goal with |- context [add_loss (in_loss o) (in_loss0 o) qo ?r] => destruct (add_loss_total o qo r Hl) as [l El]; rewrite El end. cbn [rbind].
    eexists. split; [reflexivity|].
    match goal with |- done _ _ _ (add_subs ?d ?sb ?x) => pose proof (sd_fields L d sb x) as (F1 & F2 & F3 & F4 & _) end.
    match goal with |- done ?t ?k1 ?k2 ?o => assert (Hmeets : meets S k1 o) end.
    { unfold meets. rewrite F1, F2, F3. cbn [with_loss out_trace out_lw out_output k uses always_latent has_weight dict_output].
      split; [exact Gt|]. split; [|split; [|split]].
      - intros a Ha. rewrite Kt in Ha. apply Um, Ha.
      - intros a Ha. rewrite Lt. apply Sm, Ha.
      - pose proof (so_detach_weight _ _ _ SL _ Hlw). split; [left|intros _]; assumption.
      - apply (detach_output_good k). exact Om. }
    split; [exact Hmeets|]. split; [apply kept_self; [reflexivity|exact Hmeets]|]. right.
    unfold forward_trace. cbn [debug_attr rbind]. rewrite F4. cbn [with_loss out_type]. destruct (in_debug o); eauto.
  Qed.

  (** *** Resample *)
  Lemma dmerge_new (acc items : trace) : wf_dict (acc ++ items) -> dmerge acc items = acc ++ items.
  Proof.
    revert acc. induction items as [|[k r] items IH]; intros acc H; [symmetry; apply app_nil_r|].
    assert (Hk : ~ In k (dkeys acc)).
    { unfold wf_dict in H. rewrite dkeys_app in H. cbn [dkeys map fst] in H. apply NoDup_remove_2 in H. intros Hin. apply H, in_or_app. left. exact Hin. }
    unfold dmerge. cbn [fold_left fst snd]. rewrite (dset_new _ _ _ Hk). change (dmerge (acc ++ [(k, r)]) items = acc ++ (k, r) :: items).
    rewrite IH; rewrite <- app_assoc; [reflexivity|exact H].
  Qed.
  Lemma resample_output_total k ks (c1 : dict pyval) tr2 : good_trace S tr2 -> (forall a, In a (dkeys tr2) -> In a (uses k)) ->
    (forall a, In a ks -> ~ In a (uses k)) -> all_tensors (value S) (VDict c1) -> (forall a x, In (a, x) c1 -> In a ks \/ exists t, x = VTensor t) ->
    exists c2, resample_output c1 tr2 = Ok c2 /\ all_tensors (value S) (VDict c2) /\ (forall a x, In (a, x) c2 -> In a ks \/ exists t, x = VTensor t).
  Proof.
    intros [_ Hg] Hu Hks. induction c1 as [|[a x] c1 IH]; intros Ht Hc; cbn [resample_output].
    - exists []. split; [reflexivity|]. split; [exact I|]. intros ? ? [].
    - destruct IH as (c2 & E2 & T2 & C2).
      { apply all_tensors_dict. intros b y Hin. apply (proj1 (all_tensors_dict _ _) Ht b). right. exact Hin. }
      { intros b y Hin. apply (Hc b). right. exact Hin. }
      pose proof (proj1 (all_tensors_dict _ _) Ht a x (or_introl eq_refl)) as Hx.
      destruct (dget a tr2) as [r|] eqn:E.
      + destruct (Hc a x (or_introl eq_refl)) as [Hin|(t & ->)].
        { exfalso. apply (Hks a Hin), Hu. eapply dget_In_keys, E. }
        cbn [rbind]. rewrite E2. cbn [rbind]. eexists. split; [reflexivity|]. split.
        * apply all_tensors_dict. intros b y [[= <- <-]|Hin]; [apply (Hg a r), dget_In, E|apply (proj1 (all_tensors_dict _ _) T2 b y Hin)].
        * intros b y [[= <- <-]|Hin]; [right; eauto|apply (C2 b y Hin)].
      + cbn [rbind]. rewrite E2. cbn [rbind]. eexists. split; [reflexivity|]. split.
        * apply all_tensors_dict. intros b y [[= <- <-]|Hin]; [exact Hx|apply (proj1 (all_tensors_dict _ _) T2 b y Hin)].
        * intros b y [[= <- <-]|Hin]; [apply (Hc _ _ (or_introl eq_refl))|apply (C2 b y Hin)].
  Qed.
  Lemma resample_tail_total oid q rs ix l0 dbg kws k ks (qo : out) s1 items lw2 : meets S k qo -> fit s1 -> has_weight k = true ->
    dict_output k = Some ks -> (forall a, In a ks -> ~ In a (uses k)) ->
    weight S lw2 -> good_trace S items -> dkeys items = dkeys (out_trace qo) -> latent_addrs items = latent_addrs (out_trace qo) ->
    exists r s2, resample_tail ix l0 dbg kws qo s1 (Ok (items, lw2)) = (Ok r, s2) /\ done (IResample oid q ix l0 rs dbg) k k r.
  Proof.
    intros (Gq & Uq & Sq & Wq & Oq) Hs Hw Ek Hks Hlw Gi Ki Li. unfold resample_tail.
    assert (Ea : as_trace items = items) by (apply (dmerge_new []), Gi). rewrite Ea.
    destruct Oq as [Ot Od]. destruct (Od ks Ek) as (c1 & Ec & Hc). rewrite Ec in *.
    destruct (resample_output_total k ks c1 items) as (c2 & E2 & T2 & C2); try assumption; [rewrite Ki; exact Uq|]. rewrite E2.
    destruct (proj2 Hs (store s1) (out_trace qo) items) as [d Eh]. rewrite Eh. unfold add_loss, default_loss. cbn [rmap rbind].
    eexists. eexists. split; [reflexivity|].
    match goal with |- done _ _ _ (add_subs ?d ?sb ?x) => pose proof (sd_fields L d sb x) as (F1 & F2 & F3 & F4 & _) end.
    match goal with |- done ?t ?k1 ?k2 ?o => assert (Hmeets : meets S k1 o) end.
    { unfold meets. rewrite F1, F2, F3. cbn [with_loss out_trace out_lw out_output]. split; [exact Gi|]. rewrite Ki, Li. split; [exact Uq|]. split; [exact Sq|].
      split; [split; [left|intros _]; exact Hlw|]. split; [exact T2|]. intros ks' Ek'. rewrite Ek in Ek'. injection Ek' as <-. eauto. }
    split; [exact Hmeets|]. split; [apply kept_self; [reflexivity|exact Hmeets]|]. right.
    unfold forward_trace. cbn [debug_attr rbind]. rewrite F4. cbn [with_loss out_type]. destruct dbg; eauto.
  Qed.

  (** *** all programs *)
  Theorem total t k k' : well_formed S given t k k' -> forall c kws s, all_tensors (value S) c -> part_of_call given kws -> fit s ->
    ends t k k' (run t c kws s).
  Proof.
    induction 1 as [oid sg m k Hsg Hm|oid q2 q1 o k1 k1' k2 k2' H1 IH1 H2 IH2 Ha Hl|oid p fid sg m o kp kp' kf Hp IHp Hf IHf Hno Ha Hl Hn1 Hn2 Hn3
                   |oid p q o nr kp kp' kq kq' Hp IHp Hq IHq Hc Hq' Hl Hw|oid q ix l0 rs dbg kq kq' ks Hq IHq Hw Ek Hks Hrs];
      intros c kws s Hcv Hcall Hs.
    - apply total_program; try assumption. apply Hm; assumption.
    - pose proof (call_sub (in_ix o) kws Hcall) as Hcall'.
      eapply surely_teq; [apply run_compose_eq; [apply Hcall|apply call_clash, Hcall]|]. apply surely_tbind.
      eapply surely_impl; [apply IH1; [exact Hcv|exact Hcall'|exact Hs]|]. intros [x s1] Hx (o1 & E & D1). cbn [fst] in E. subst x.
      unfold after. cbn [fst snd]. apply surely_tbind.
      eapply surely_impl; [apply IH2; [apply D1|exact Hcall'|exact (fit_run _ _ _ _ _ Hs Hx)]|]. intros [x s2] Hx2 (o2 & E & D2). cbn [fst] in E. subst x.
      unfold after. cbn [fst snd]. apply surely_leaf. destruct (compose_tail_total oid q2 q1 o kws k1 k2 o1 o2 Hl Ha (proj1 D1) (proj1 D2)) as (r & Er & Dr).
      exists r. split; [exact Er|exact Dr].
    - pose proof (call_sub (in_ix o) kws Hcall) as Hcall'. inversion Hf; subst.
      eapply surely_teq; [apply run_extend_eq; [apply Hcall|apply fit_wf, Hs|apply call_clash, Hcall]|]. cbn zeta. cbn [oid_of].
      assert (Hgc : good_cond (get_cond oid s)) by (intros ct E; apply (proj1 Hs oid ct E)).
      apply surely_tbind. eapply surely_impl; [apply IHp; [exact Hcv|exact Hcall'|apply fit_set; [apply fit_set; assumption|assumption]]|].
      intros [x s1] Hx (po & E & Dp). cbn [fst] in E. subst x. cbn [fst snd]. apply surely_tbind.
      assert (Hs1 : fit s1) by (apply (fit_run _ _ _ _ _ (fit_set _ _ _ (fit_set _ _ _ Hs Hgc) Hgc) Hx)).
      assert (Hfc : get_cond oid s = None -> get_cond fid s1 = None).
      { intros E. apply reaches_outcome, run_scoped in Hx. destruct Hx as (_ & Hx & _). apply Hx. rewrite get_set_same. exact E. }
      assert (Hoid : get_cond oid s1 = get_cond oid s).
      { apply reaches_outcome, run_scoped in Hx. destruct Hx as (Hx & _). rewrite (Hx oid Hn3), !get_set_other by assumption. reflexivity. }
      eapply surely_impl; [eapply prog_surely; [assumption|exact Hcall'|exact Hs1|]|].
      { apply fine_and; [|apply Hno; [apply Dp|exact Hcall']]. match goal with H : forall c kws, _ -> _ -> fine S (model_meets S kf) [] _ |- _ => apply H end; [apply Dp|exact Hcall']. }
      intros [x s2] Hx2 (tr & lw & v & l & E & [HQ HQ'] & Hm & Hlw & Hlw' & Hz). cbn [fst] in E. subst x. cbn [fst snd]. apply surely_leaf.
      set (fo := mkOut tr lw v TyProgram None None None None []).
      assert (Hoid2 : get_cond oid (set_cond (oid_of p) None (set_cond fid None s2)) = get_cond oid s).
      { rewrite !get_set_other by assumption. apply reaches_outcome, run_scoped in Hx2. destruct Hx2 as (Hx2 & _). rewrite (Hx2 oid) by (intros []). exact Hoid. }
      rewrite Hoid2.
      destruct (extend_tail_total oid p (IProg fid sg m) o kws (get_cond oid s) kp kf po fo Hl Hcall Ha (proj1 Dp)) as (r & Er & Dr).
      + eapply meets_prog; eassumption.
      + intros a r Hin. destruct (In_matches _ _ _ _ _ Hm Hin) as [Hi _]. apply (HQ' _ _ Hi).
      + intros E. split; [apply (Hz (Hfc E) HQ')|]. intros a r Hin. apply (In_matches _ _ _ _ _ Hm Hin), Hfc, E.
      + exists r. split; [exact Er|exact Dr].
    - pose proof (call_sub (in_ix o) kws Hcall) as Hcall'.
      eapply surely_teq; [apply run_propose_eq; [apply Hcall|apply fit_wf, Hs|apply call_clash, Hcall|exact Hc]|]. apply surely_tbind.
      eapply surely_impl; [apply IHq; [exact Hcv|exact Hcall'|exact Hs]|]. intros [x s1] Hx (qo & E & Dq). cbn [fst] in E. subst x.
      unfold after. cbn [fst snd]. pose proof (proj1 (proj1 Dq)) as Gq.
      rewrite with_eq by (intros t [= <-]; apply Gq). eapply surely_teq; [apply teq_assoc|]. apply surely_tbind.
      assert (Hs1 : fit s1) by exact (fit_run _ _ _ _ _ Hs Hx).
      eapply surely_impl; [apply IHp; [exact Hcv|exact Hcall'|apply fit_set; [exact Hs1|intros ct [= <-]; exact Gq]]|].
      intros [x s2] Hx2 (po & E & Dp). cbn [fst] in E. subst x. cbn [tbind fst snd]. apply surely_leaf.
      destruct (propose_tail_total oid p q o nr kws kp kp' kq qo po Hl Hcall (proj1 Dq) (proj1 Dp)) as (r & Er & Dr); [apply Dp| |exact Hw|].
      + destruct Dq as (_ & _ & [Hpr|Hf]); [contradiction|exact Hf].
      + exists r. split; [exact Er|exact Dr].
    - pose proof (call_sub ix kws Hcall) as Hcall'.
      eapply surely_teq; [apply run_resample_eq; [apply Hcall|apply call_clash, Hcall]|]. apply surely_tbind.
      eapply surely_impl; [apply IHq; [exact Hcv|exact Hcall'|exact Hs]|]. intros [x s1] Hx (qo & E & Dq). cbn [fst] in E. subst x.
      unfold after. cbn [fst snd]. destruct Dq as (Mq & _). apply surely_tbind.
      destruct Hcall as (_ & Esd & Ebd & Erep & _). unfold k_sd, k_bd, k_rep. rewrite Esd, Ebd, Erep.
      intros r Hr. destruct (Hrs (out_trace qo) (out_lw qo) r (proj1 Mq)) as (items & lw2 & -> & Hw2 & Gi & Ki & Li); [apply Mq, Hw|exact Hr|].
      apply surely_leaf. destruct (resample_tail_total oid q rs ix l0 dbg kws kq ks qo s1 items lw2) as (o & s2 & Eo & Do); try assumption; [exact (fit_run _ _ _ _ _ Hs Hx)|].
      exists o. rewrite Eo. split; [reflexivity|exact Do].
  Qed.
End Total.

Theorem total_spec {L : lib} (S : sorts L) t k k' c kws s r s' :
  sorts_laws S (kwarg "sample_dims" VNone kws) (kwarg "batch_dim" VNone kws) -> well_formed S kws t k k' ->
  all_tensors (value S) c -> plain_call kws -> at_rest s -> reaches S (run t c kws s) (r, s') -> exists o, r = Ok o /\ meets S k o.
Proof.
  intros SL Hw Hc Hk [Hcl Hh] H. destruct (total S SL t k k' Hw c kws s Hc) with (a := (r, s')) as (o & E & Ho & _).
  - split; [exact Hk|]. auto.
  - split; [|exact Hh]. intros i ct E. rewrite (Hcl i) in E. discriminate.
  - exact H.
  - exists o. split; [exact E|exact Ho].
Qed.

(** ** any library *)
Lemma any_laws (L : lib) sd bd : lib_laws L -> tensor_laws L -> (forall x, is_tensor L (detach L x) = is_tensor L x) ->
  eq_zero L (tzero L) = Ok true -> (forall rep b p, lj_ok L rep b p = true) -> sorts_laws (any_sorts L) sd bd.
Proof.
  intros HL HT Hd He Hl. constructor; cbn; try exact I; try trivial; try assumption.
  - intros d v _. eauto.
  - intros x (d & v & ->). apply (tl_sum L HT).
  - intros x y Hx Hy. rewrite (tl_add L HT), Hx. reflexivity.
  - intros x y Hx _. rewrite !(tl_add L HT), Hx. split; [reflexivity|apply orb_true_r].
  - intros x y Hx Hy. rewrite (tl_sub L HT), Hx. reflexivity.
  - intros x y Hx _. rewrite !(tl_sub L HT), Hx. split; [reflexivity|apply orb_true_r].
  - intros x Hx. rewrite Hd. exact Hx.
  - apply (order_perm L HL).
Qed.
Lemma any_reaches {L : lib} {A} (t : stree L A) a : outcome t a -> reaches (any_sorts L) t a.
Proof. induction 1; econstructor; try eassumption. exact I. Qed.

(** ** populations of particles *)
Section ParticleSorts.
  Context {LV LS : lib} (HL : lib_laws LV) (M : measures LS) (W : array_view LV) (N B : nat)
          (P : population LV LS) (PL : population_laws W N B P M) (HN : 0 < N).
  Hypothesis He : eq_zero LV (tzero LV) = Ok true.
  Hypothesis Hl : forall rep b p, lj_ok LV rep b p = true.
  Lemma particle_laws : sorts_laws (particle_sorts W N B) (VInt 0) (VInt 1).
  Proof.
    constructor; cbn; try assumption.
    - intros d rep sh v Hv. exact Hv.
    - intros d v Hv. apply (log_prob _ _ _ _ _ PL), Hv.
    - intros x Hx. apply (batch_sum _ _ _ _ _ PL), Hx.
    - reflexivity.
    - intros x y Hx Hy. apply (add_weights _ _ _ _ _ PL); assumption.
    - intros x y Hx ->. rewrite (tadd_comm LV HL x), (tadd_zero LV HL). auto.
    - intros x y -> ->. apply (tadd_zero LV HL).
    - intros x y Hx Hy. apply (sub_weights _ _ _ _ _ PL); assumption.
    - intros x y Hx ->. split; [apply (sub_zero _ _ _ _ _ PL)|apply (zero_sub _ _ _ _ _ PL)]; assumption.
    - intros x y -> ->. apply (zero_zero _ _ _ _ _ PL).
    - intros x Hx. apply Hx.
    - intros x Hx. rewrite (no_gradient _ _ _ _ _ PL). exact Hx.
    - intros x Hx. rewrite (no_gradient _ _ _ _ _ PL). exact Hx.
    - apply (order_perm LV HL).
  Qed.
  Lemma pick_total lw v z : log_weights W N B lw -> drawn W N B DrawRand v -> particles W N B z -> exists x, pick W z (aidx W N B lw v) = Ok x.
  Proof.
    intros Hw Hv [Ht Hz]. unfold pick. rewrite Ht. cbn [negb aidx ishape length]. rewrite Hz, (proj2 (shape_eqb_eq _ _) eq_refl). cbn [negb].
    assert (E : forallb (fun i => iat (aidx W N B lw v) i <? nth 0 (shape (to_arr W z)) 0) (indices [N; B]) = true).
    { apply forallb_forall. intros i Hi. apply Nat.ltb_lt. destruct (firstn2 _ _ _ Hz) as [tsh Etl]. rewrite Etl. cbn [nth aidx iat].
      apply indices_spec in Hi. destruct Hi as [Hlen Hd]. apply (anc_lt W N B HN); try assumption; [apply (Hd 1); cbn; lia|apply (Hd 0); cbn; lia]. }
    match goal with |- context [forallb ?f ?l] => replace (forallb f l) with true by (symmetry; exact E) end. cbn [negb]. eauto.
  Qed.
  Lemma systematic_total rep : total_resampler (particle_sorts W N B) (systematic W false) (VInt 0) (VInt 1) rep.
  Proof.
    intros tr lw r [Hwf Hg] Hw Hr. cbn [particle_sorts weight] in Hw.
    change (rs_call (systematic W false)) with (systematic_call W false) in Hr.
    match type of Hr with reaches _ (systematic_call _ _ _ _ ?k) _ => change k with [("sample_dims", @VInt (T LV) 0); ("batch_dim", VInt 1)] in Hr end.
    rewrite (systematic_eq W N B HN tr lw Hw) in Hr. inversion Hr as [|d k v a Hv Ha]; subst. inversion Ha; subst. clear Hr Ha.
    assert (G : forall tr, (forall a r, In (a, r) tr -> good_node (particle_sorts W N B) r) ->
      exists tr2, resample_nodes W (aidx W N B lw v) tr = Ok tr2 /\ dkeys tr2 = dkeys tr /\ latent_addrs tr2 = latent_addrs tr /\
        forall a r, In (a, r) tr2 -> good_node (particle_sorts W N B) r).
    { clear tr Hwf Hg. induction tr as [|[a r] tr IH]; intros Hg; cbn [resample_nodes].
      - exists []. split; [reflexivity|]. split; [reflexivity|]. split; [reflexivity|]. intros ? ? [].
      - destruct IH as (tr2 & E2 & K2 & L2 & G2); [intros b x Hin; apply (Hg b); right; exact Hin|].
        pose proof (Hg a r (or_introl eq_refl)) as Gr.
        assert (Er : exists r', resample_rv W (aidx W N B lw v) r = Ok r' /\ is_observed r' = is_observed r /\ good_node (particle_sorts W N B) r').
        { unfold resample_rv. destruct (negb (rv_resamplable r) || is_observed r); [exists r; auto|]. destruct Gr as (Gv & Gl & d & Ed). cbn in Gv, Gl.
          destruct (pick_total lw v (rv_value r) Hw Hv Gv) as [v' Ev]. destruct (pick_total lw v (rv_logp r) Hw Hv (proj1 Gl)) as [l' El].
          rewrite Ev, El. cbn [rbind]. rewrite Ed. eexists. split; [reflexivity|]. split; [reflexivity|]. split; [|split; [|exists d; reflexivity]]; cbn.
          - exact (proj1 (pick_facts M W N B P PL HN _ _ _ _ Hw Hv Gv Ev)).
          - exact (proj1 (proj2 (pick_facts M W N B P PL HN _ _ _ _ Hw Hv (proj1 Gl) El)) Gl). }
        destruct Er as (r' & Er & Eo & Gr'). rewrite Er. cbn [rbind]. rewrite E2. cbn [rbind]. eexists. split; [reflexivity|]. split; [|split].
        + cbn [dkeys map fst]. f_equal. exact K2.
        + unfold latent_addrs in *. cbn [filter snd]. rewrite Eo. destruct (negb (is_observed r)); cbn [map fst]; [f_equal|]; exact L2.
        + intros b x [[= <- <-]|Hin]; [exact Gr'|eapply G2, Hin]. }
    destruct (G tr Hg) as (tr2 & E2 & K2 & L2 & G2). rewrite E2. cbn [rbind]. eexists. eexists. split; [reflexivity|].
    split; [apply (mean_facts W N B HN lw Hw)|]. split; [split; [unfold wf_dict; rewrite K2; exact Hwf|exact G2]|]. auto.
  Qed.
  Lemma particle_reaches {A} (t : stree LV A) a : possible W N B t a -> reaches (particle_sorts W N B) t a.
  Proof. induction 1; econstructor; eassumption. Qed.
End ParticleSorts.
