(** Proof of proper weighting for populations of particles (C59). *)
From Coq Require Import Lra.
From Coquelicot Require Import Coquelicot.
From Verif Require Import SpecParticles Thm_Proper Thm_Systematic.
Close Scope R_scope.
Open Scope nat_scope.

(** *** Python values *)
Lemma pyval_ind' {A} (Q : pyval A -> Prop) :
  Q VNone -> (forall b, Q (VBool b)) -> (forall z, Q (VInt z)) -> (forall s, Q (VStr s)) -> (forall t, Q (VTensor t)) ->
  (forall l, Forall Q l -> Q (VTup l)) -> (forall d, Forall (fun kv => Q (snd kv)) d -> Q (VDict d)) -> (forall n, Q (VObj n)) ->
  forall v, Q v.
Proof.
  intros H1 H2 H3 H4 H5 H6 H7 H8. fix IH 1. intros [|b|z|s|t|l|d|n]; [exact H1|apply H2|apply H3|apply H4|apply H5| | |apply H8].
  - apply H6. induction l as [|v l IHl]; constructor; [apply IH|exact IHl].
  - apply H7. induction d as [|[k v] d IHd]; constructor; [apply IH|exact IHd].
Qed.
Lemma vmap_nt {A B} (f g : A -> B) v : no_tensor v -> vmap f v = vmap g v.
Proof.
  unfold no_tensor. induction v as [|b|z|s|t|l IH|d IH|n] using pyval_ind'; cbn [vmap all_tensors]; intros H; try reflexivity.
  - destruct H.
  - f_equal. induction IH as [|v l Hv _ IHl]; [reflexivity|]. cbn [map fold_right] in *. destruct H as [H1 H2]. rewrite Hv, IHl by assumption. reflexivity.
  - f_equal. induction IH as [|[k v] d Hv _ IHd]; [reflexivity|]. cbn [map fold_right fst snd] in *. destruct H as [H1 H2]. rewrite Hv, IHd by assumption. reflexivity.
Qed.
Lemma vmap_nt_inv {A B} (f : A -> B) v : no_tensor (vmap f v) -> no_tensor v.
Proof.
  unfold no_tensor. induction v as [|b|z|s|t|l IH|d IH|n] using pyval_ind'; cbn [vmap all_tensors]; intros H; auto.
  - induction IH as [|v l Hv _ IHl]; [exact I|]. cbn [map fold_right] in *. destruct H as [H1 H2]. auto.
  - induction IH as [|[k v] d Hv _ IHd]; [exact I|]. cbn [map fold_right fst snd] in *. destruct H as [H1 H2]. auto.
Qed.
Lemma all_tensors_mono {A} (Q Q' : A -> Prop) v : (forall t, Q t -> Q' t) -> all_tensors Q v -> all_tensors Q' v.
Proof.
  intros HQ. induction v as [|b|z|s|t|l IH|d IH|n] using pyval_ind'; cbn [all_tensors]; intros H; auto.
  - induction IH as [|v l Hv _ IHl]; [exact I|]. cbn [map fold_right] in *. destruct H as [H1 H2]. auto.
  - induction IH as [|[k v] d Hv _ IHd]; [exact I|]. cbn [map fold_right fst snd] in *. destruct H as [H1 H2]. auto.
Qed.
Lemma all_tensors_dict {A} (Q : A -> Prop) d : all_tensors Q (VDict d) <-> forall k v, In (k, v) d -> all_tensors Q v.
Proof.
  cbn [all_tensors]. induction d as [|[k v] d IH]; cbn [map fold_right fst snd]; [split; [intros _ k v []|auto]|].
  rewrite IH. split.
  - intros [H1 H2] k' v' [[= <- <-]|Hi]; [exact H1|eauto].
  - intros H. split; [apply (H k); left; reflexivity|]. intros k' v' Hi. apply (H k'). right. exact Hi.
Qed.

(** keyword arguments *)
Definition nt_kws {A} (kws : dict (pyval A)) : Prop := forall k v, In (k, v) kws -> no_tensor v.
Lemma dget_kmap {A B} (f : A -> B) k kws : dget k (kmap f kws) = option_map (vmap f) (dget k kws).
Proof. induction kws as [|[k' v] kws IH]; cbn; [reflexivity|]. destruct (String.eqb k k'); [reflexivity|exact IH]. Qed.
Lemma filter_kmap {A B} (f : A -> B) (g : string -> bool) kws :
  filter (fun kv => g (fst kv)) (kmap f kws) = kmap f (filter (fun kv => g (fst kv)) kws).
Proof. induction kws as [|[k v] kws IH]; [reflexivity|]. cbn [kmap map filter fst snd]. change (map _ kws) with (kmap f kws). rewrite IH. destruct (g k); reflexivity. Qed.
Lemma dset_kmap {A B} (f : A -> B) k v kws : dset k (vmap f v) (kmap f kws) = kmap f (dset k v kws).
Proof. induction kws as [|[k' v'] kws IH]; [reflexivity|]. cbn [kmap map dset fst snd]. change (map _ kws) with (kmap f kws). destruct (String.eqb k k'); [reflexivity|]. rewrite IH. reflexivity. Qed.
Lemma dmerge_kmap {A B} (f : A -> B) kws kws' : dmerge (kmap f kws) (kmap f kws') = kmap f (dmerge kws kws').
Proof.
  unfold dmerge. revert kws. induction kws' as [|[k v] kws' IH]; intros kws; [reflexivity|]. cbn [kmap map fold_left fst snd].
  change (map _ kws') with (kmap f kws'). rewrite dset_kmap. apply IH.
Qed.
Lemma kmap_nt {A B} (f g : A -> B) kws : nt_kws kws -> kmap f kws = kmap g kws.
Proof.
  intros H. unfold kmap. apply map_ext_in. intros [k v] Hi. cbn. rewrite (vmap_nt f g) by (eapply H, Hi). reflexivity.
Qed.
Lemma nt_dget {A} k (kws : dict (pyval A)) v : nt_kws kws -> dget k kws = Some v -> no_tensor v.
Proof. intros H Hk. apply dget_In in Hk. eapply H, Hk. Qed.

Section Kwargs.
  Context {LV LS : lib} (f : T LV -> T LS).
  Lemma kwarg_kmap k (dv : pyval (T LV)) kws : kwarg (L := LS) k (vmap f dv) (kmap f kws) = vmap f (kwarg (L := LV) k dv kws).
  Proof. unfold kwarg. rewrite dget_kmap. destruct (dget k kws); reflexivity. Qed.
  Lemma sub_kwargs_kmap (ix : pyval (T LV)) kws : sub_kwargs (L := LS) (vmap f ix) (kmap f kws) = kmap f (sub_kwargs (L := LV) ix kws).
  Proof.
    unfold sub_kwargs. rewrite (filter_kmap f (fun k => negb (mem k ["sample_dims"; "batch_dim"; "_debug"; "reparameterized"; "ix"]))).
    unfold kmap at 7. rewrite map_app. f_equal. cbn [map fst snd].
    rewrite <- !kwarg_kmap. cbn [vmap].
    assert (E : is_none (vmap f ix) = is_none ix) by (destruct ix; reflexivity). rewrite E.
    destruct (is_none ix); [rewrite <- kwarg_kmap|]; reflexivity.
  Qed.
  Lemma prog_kwargs_kmap sg kws : prog_kwargs (L := LS) sg (kmap f kws) = kmap f (prog_kwargs (L := LV) sg kws).
  Proof.
    unfold prog_kwargs. rewrite (filter_kmap f (fun k => negb (mem k ["sample_dims"; "batch_dim"; "reparameterized"]))).
    unfold k_sd, k_bd, k_rep.
    change (@VNone (T LS)) with (vmap f (@VNone (T LV))). change (@VBool (T LS) true) with (vmap f (@VBool (T LV) true)).
    rewrite !kwarg_kmap.
    match goal with |- context [dmerge [("sample_dims", vmap f ?a); ("batch_dim", vmap f ?b); ("reparameterized", vmap f ?c)] _] =>
      change [("sample_dims", vmap f a); ("batch_dim", vmap f b); ("reparameterized", vmap f c)] with
        (kmap f [("sample_dims", a); ("batch_dim", b); ("reparameterized", c)]) end.
    rewrite dmerge_kmap. apply (filter_kmap f (fun k => check_passable_kwarg k sg)).
  Qed.
  Lemma clash_kmap l kws : clash (L := LS) l (kmap f kws) = clash (L := LV) l kws.
  Proof. unfold clash. induction kws as [|[k v] kws IH]; [reflexivity|]. cbn [kmap map existsb fst]. f_equal. exact IH. Qed.
  Lemma wf_kmap (kws : dict (pyval (T LV))) : wf_dict kws -> wf_dict (kmap f kws).
  Proof. unfold wf_dict, dkeys, kmap. rewrite map_map. exact (fun H => H). Qed.
  Lemma nt_sub (ix : pyval (T LV)) kws : no_tensor ix -> nt_kws kws -> nt_kws (sub_kwargs ix kws).
  Proof.
    intros Hi Hk k v Hin. unfold sub_kwargs in Hin. apply in_app_iff in Hin. destruct Hin as [Hin|Hin].
    - assert (Hkw : forall n dv, no_tensor dv -> no_tensor (kwarg (L := LV) n dv kws)).
      { intros n dv Hd. unfold kwarg. destruct (dget n kws) eqn:E; [eapply nt_dget; eassumption|exact Hd]. }
      cbn [In] in Hin. repeat destruct Hin as [Hin|Hin]; try contradiction; injection Hin as <- <-; try (apply Hkw; exact I).
      destruct (is_none ix); [apply Hkw; exact I|exact Hi].
    - apply filter_In in Hin. eapply Hk, Hin.
  Qed.
End Kwargs.

(** *** Sampling trees and expectations *)
Section Particles.
  Context {LV LS : lib} (HL : lib_laws LV) (M : measures LS) (ML : measure_laws M) (W : array_view LV) (N B : nat)
          (P : population LV LS) (PL : population_laws W N B P M) (HN : 0 < N) (sp : string -> Sp M).
  Notation EV := (expectation P). Notation poss := (possible W N B).
  Notation ptens := (particles W N B). Notation lps := (log_probs W N B). Notation lws := (log_weights W N B).

  Lemma EV_ext {A} (t : stree LV A) f g : (forall a, poss t a -> f a = g a) -> EV t f = EV t g.
  Proof.
    induction t as [a|[d rep sh|] k IH]; intros H; cbn [expectation].
    - apply H. constructor.
    - apply (mean_ext _ _ _ _ _ PL). intros v Hv. apply IH. intros a Ha. apply H. econstructor; [exact Hv|exact Ha].
    - apply (offset_ext _ _ _ _ _ PL). intros v Hv. apply IH. intros a Ha. apply H. econstructor; [exact Hv|exact Ha].
  Qed.
  Lemma EV_all {A} (t : stree LV A) f g : (forall a, f a = g a) -> EV t f = EV t g.
  Proof. intros H. apply EV_ext. intros a _. apply H. Qed.
  Lemma EV_tbind {A A'} (t : stree LV A) (k : A -> stree LV A') f : EV (tbind t k) f = EV t (fun a => EV (k a) f).
  Proof.
    induction t as [a|[d rep sh|] k' IH]; cbn [expectation tbind]; [reflexivity| |].
    - apply (mean_ext _ _ _ _ _ PL). intros v _. apply IH.
    - apply (offset_ext _ _ _ _ _ PL). intros v _. apply IH.
  Qed.
  Lemma EV_teq {A} (t t' : stree LV A) f : teq t t' -> EV t f = EV t' f.
  Proof.
    induction 1 as [a b ->|[d rep sh|] k k' H IH]; cbn [expectation]; [reflexivity| |].
    - apply (mean_ext _ _ _ _ _ PL). intros v _. apply IH.
    - apply (offset_ext _ _ _ _ _ PL). intros v _. apply IH.
  Qed.
  Lemma poss_outcome {A} (t : stree LV A) a : poss t a -> outcome t a.
  Proof. induction 1; econstructor; eassumption. Qed.
  Lemma poss_leaf_inv {A} (a b : A) : poss (Leaf a) b -> b = a.
  Proof. intros H. inversion H. reflexivity. Qed.
  Lemma poss_draw_inv {A} d (k : T LV -> stree LV A) a : poss (Draw d k) a -> exists v, drawn W N B d v /\ poss (k v) a.
  Proof. intros H. inversion H; subst. eauto. Qed.
  Lemma poss_tbind {A A'} (t : stree LV A) (k : A -> stree LV A') b : poss (tbind t k) b <-> exists a, poss t a /\ poss (k a) b.
  Proof.
    split.
    - induction t as [a|d k' IH]; cbn [tbind]; intros H; [exists a; split; [constructor|exact H]|].
      apply poss_draw_inv in H. destruct H as (v & Hv & H). destruct (IH _ H) as (a & H1 & H2). exists a. split; [econstructor; eassumption|exact H2].
    - intros (a & H1 & H2). induction H1 as [a|d k' v a Hv H1 IH]; cbn [tbind]; [exact H2|]. econstructor; [exact Hv|]. apply IH, H2.
  Qed.
  Lemma poss_teq {A} (t t' : stree LV A) a : teq t t' -> poss t a -> poss t' a.
  Proof.
    intros H. revert a. induction H as [x y ->|d k k' H IH]; intros a Ha; [exact Ha|].
    apply poss_draw_inv in Ha. destruct Ha as (v & Hv & Ha). econstructor; [exact Hv|]. apply IH, Ha.
  Qed.

  (** runs without torch.rand *)
  Fixpoint norand {A} (t : stree LV A) : Prop :=
    match t with
    | Leaf _ => True
    | Draw (DrawDist _ _ _) k => forall v, ptens v -> norand (k v)
    | Draw DrawRand _ => False
    end.
  Lemma norand_tbind {A A'} (t : stree LV A) (k : A -> stree LV A') : norand t -> (forall a, poss t a -> norand (k a)) -> norand (tbind t k).
  Proof.
    induction t as [a|[d rep sh|] k' IH]; cbn [norand tbind]; intros H Hk; [apply Hk; constructor| |destruct H].
    intros v Hv. apply IH; [apply H, Hv|]. intros a Ha. apply Hk. econstructor; [exact Hv|exact Ha].
  Qed.
  Lemma norand_teq {A} (t t' : stree LV A) : teq t t' -> norand t -> norand t'.
  Proof. induction 1 as [x y ->|[d rep sh|] k k' H IH]; cbn [norand]; auto. Qed.
  Lemma EV_scale {A} (t : stree LV A) c f : norand t -> EV t (fun a => (c * f a)%R) = (c * EV t f)%R.
  Proof.
    induction t as [a|[d rep sh|] k IH]; cbn [expectation norand]; intros H; [reflexivity| |destruct H].
    rewrite <- (mean_scale _ _ _ _ _ PL). apply (mean_ext _ _ _ _ _ PL). intros v Hv. apply IH, H, Hv.
  Qed.
  Lemma EV_plus {A} (t : stree LV A) f g : norand t -> EV t (fun a => (f a + g a)%R) = (EV t f + EV t g)%R.
  Proof.
    induction t as [a|[d rep sh|] k IH]; cbn [expectation norand]; intros H; [reflexivity| |destruct H].
    rewrite <- (mean_plus _ _ _ _ _ PL). apply (mean_ext _ _ _ _ _ PL). intros v Hv. apply IH, H, Hv.
  Qed.
  Lemma EV_rsum {A I} (t : stree LV A) (f : I -> A -> R) l : norand t ->
    EV t (fun a => rsum (map (fun i => f i a) l)) = rsum (map (fun i => EV t (f i)) l).
  Proof.
    intros H. induction l as [|i l IH]; cbn [map].
    - unfold rsum. cbn [fold_right]. rewrite (EV_all t _ (fun _ => (0 * 0)%R)) by (intros; ring). rewrite EV_scale by exact H. ring.
    - change (rsum (EV t (f i) :: map (fun i => EV t (f i)) l)) with (EV t (f i) + rsum (map (fun i => EV t (f i)) l))%R. rewrite <- IH.
      apply (EV_plus t (f i) (fun a => rsum (map (fun i => f i a) l)) H).
  Qed.

  Definition quietP {A} (t : stree LV (res A * st LV)) : Prop := forall x, poss t x -> exists a, fst x = Ok a.
  Definition okP {A} (f : A -> R) (x : res A * st LV) : R := match fst x with Ok a => f a | Err _ => 0%R end.
  Lemma quietP_after {A A'} (t : stree LV (res A * st LV)) (f : A -> st LV -> stree LV (res A' * st LV)) :
    quietP (tbind t (fun x => after x f)) -> quietP t /\ forall a s1, poss t (Ok a, s1) -> quietP (f a s1).
  Proof.
    intros H. split.
    - intros [[a|e] s1] Hx; [exists a; reflexivity|]. destruct (H (Err e, s1)) as [b Hb]; [|discriminate].
      apply poss_tbind. exists (Err e, s1). split; [exact Hx|constructor].
    - intros a s1 Ha x Hx. apply H. apply poss_tbind. exists (Ok a, s1). split; [exact Ha|exact Hx].
  Qed.
  Lemma EV_after {A A'} (t : stree LV (res A * st LV)) (f : A -> st LV -> stree LV (res A' * st LV)) g :
    quietP t ->
    EV (tbind t (fun x => after x f)) g = EV t (fun x => match fst x with Ok a => EV (f a (snd x)) g | Err _ => 0%R end).
  Proof.
    intros Hq. rewrite EV_tbind. apply EV_ext. intros [[a|e] s1] Hx; [reflexivity|].
    destruct (Hq _ Hx). discriminate.
  Qed.
  Lemma teq_quietP {A} (t t' : stree LV (res A * st LV)) : teq t t' -> quietP t -> quietP t'.
  Proof. intros H Hq x Hx. apply Hq. eapply poss_teq; [apply teq_sym; exact H|exact Hx]. Qed.

  Lemma norand_exec cond m : forall tr s, norand (exec (L := LV) cond m tr s).
  Proof.
    induction m as [o|e|a d value rep k IH|a r0 k IH|k IH|k IH|d rep shape k IH|key k IH|key v k IH]; intros tr s; cbn [exec]; try exact I; auto.
    - assert (Hf : forall v p s0, norand (mbind (lift (add_node a (mkRV (Proper d) v (logp LV d v) p rep true) tr)) (fun tr' => exec cond (k v) tr') s0)).
      { intros v p s0. rewrite mbind_lift. destruct (add_node _ _ _); [apply IH|exact I]. }
      destruct value as [[v pv]|]; [apply Hf|]. destruct (match cond with Some ct => dget a ct | None => None end); [apply Hf|]. intros v _. apply Hf.
    - intros v _. apply IH.
  Qed.
  Lemma norand_prog oid sg m c kws s : norand (run (L := LV) (IProg oid sg m) c kws s).
  Proof.
    cbn [run]. destruct (clash ["self"] kws || clash (firstn 3 (s_args sg)) (prog_kwargs sg kws)) eqn:E.
    - unfold forward. fold (k_sd kws) (k_bd kws) (k_rep kws) (prog_kwargs sg kws). rewrite E. exact I.
    - eapply norand_teq; [apply teq_sym, forward_eq, E|]. apply norand_tbind; [apply norand_exec|]. intros [[[o tr]|e] s1] _; exact I.
  Qed.

  (** *** Log-weights *)
  Notation pw := (particle_weight W).
  Definition weightlike (x : T LV) : Prop := x = tzero LV \/ lws x.
  Lemma lws_tensor x : lws x -> is_tensor LV x = true.
  Proof. intros [[[H _] _] _]. exact H. Qed.
  Lemma pw_zero s b : pw s b (tzero LV) = 0%R.
  Proof. unfold particle_weight. rewrite (float_zero _ _ _ _ _ PL). reflexivity. Qed.
  Lemma pw_lws s b x : lws x -> pw s b x = entry W s b x.
  Proof. intros H. unfold particle_weight. rewrite lws_tensor by exact H. reflexivity. Qed.
  Lemma wl_add x y : weightlike x -> weightlike y ->
    weightlike (tadd LV x y) /\ forall s b, s < N -> b < B -> pw s b (tadd LV x y) = (pw s b x + pw s b y)%R.
  Proof.
    intros [->|Hx].
    - intros Hy. rewrite (tadd_zero LV HL). split; [exact Hy|]. intros s b _ _. rewrite pw_zero. ring.
    - intros [->|Hy].
      + rewrite (tadd_comm LV HL), (tadd_zero LV HL). split; [right; exact Hx|]. intros s b _ _. rewrite pw_zero. ring.
      + destruct (add_weights _ _ _ _ _ PL x y Hx Hy) as [H1 H2]. split; [right; exact H1|].
        intros s b Hs Hb. rewrite !pw_lws by assumption. apply H2; assumption.
  Qed.
  Lemma wl_sub x y : weightlike x -> weightlike y ->
    weightlike (tsub LV x y) /\ forall s b, s < N -> b < B -> pw s b (tsub LV x y) = (pw s b x - pw s b y)%R.
  Proof.
    intros [->|Hx] [->|Hy].
    - rewrite (zero_zero _ _ _ _ _ PL). split; [left; reflexivity|]. intros s b _ _. rewrite pw_zero. ring.
    - destruct (zero_sub _ _ _ _ _ PL y Hy) as [H1 H2]. split; [right; exact H1|].
      intros s b Hs Hb. rewrite pw_zero, !pw_lws, H2 by assumption. ring.
    - destruct (sub_zero _ _ _ _ _ PL x Hx) as [H1 H2]. split; [right; exact H1|].
      intros s b Hs Hb. rewrite pw_zero, !pw_lws, H2 by assumption. ring.
    - destruct (sub_weights _ _ _ _ _ PL x y Hx Hy) as [H1 H2]. split; [right; exact H1|].
      intros s b Hs Hb. rewrite !pw_lws by assumption. apply H2; assumption.
  Qed.

  Definition goodnode (r : rv LV) : Prop := ptens (rv_value r) /\ lps (rv_logp r) /\ rv_resamplable r = true.
  Definition goodtr (tr : trace LV) : Prop := forall a r, In (a, r) tr -> goodnode r.
  Definition viewp (s b : nat) (tr : trace LV) : nodes (L := LS) :=
    map (fun ar => (fst ar, (is_observed (snd ar), part P s b (rv_value (snd ar)), part P s b (rv_logp (snd ar))))) tr.
  Lemma viewp_app s b t t' : viewp s b (t ++ t') = viewp s b t ++ viewp s b t'.
  Proof. apply map_app. Qed.
  Lemma viewp_keys s b t : map fst (viewp s b t) = dkeys t.
  Proof. unfold viewp, dkeys. rewrite map_map. reflexivity. Qed.
  Lemma viewp_dget s b t a :
    dget a (viewp s b t) = option_map (fun r => (is_observed r, part P s b (rv_value r), part P s b (rv_logp r))) (dget a t).
  Proof. induction t as [|[k r] t IH]; cbn; [reflexivity|]. destruct (String.eqb a k); [reflexivity|exact IH]. Qed.
  Lemma goodtr_app t t' : goodtr t -> goodtr t' -> goodtr (t ++ t').
  Proof. intros H H' a r Hin. apply in_app_iff in Hin. destruct Hin; eauto. Qed.

  Lemma pw_logp_sum (C : string -> bool) (t : trace LV) : goodtr t ->
    weightlike (logp_sum (VInt 0) (VInt 1) (fun a r => is_observed r || C a) t) /\
    forall s b, s < N -> b < B -> exp (pw s b (logp_sum (VInt 0) (VInt 1) (fun a r => is_observed r || C a) t)) = lu M C (viewp s b t).
  Proof.
    unfold logp_sum. induction t as [|[a r] t IH]; intros Hg; cbn [filter map fst snd viewp lu].
    - split; [left; reflexivity|]. intros s b _ _. change (tsum []) with (tzero LV). rewrite pw_zero. apply exp_0.
    - destruct IH as [I1 I2]; [intros k x Hx; apply (Hg k); right; exact Hx|].
      destruct (Hg a r) as (Hv & Hl & _); [left; reflexivity|].
      destruct (batch_sum _ _ _ _ _ PL _ Hl) as [B1 B2].
      destruct (is_observed r || C a); cbn [map snd].
      + rewrite tsum_cons. destruct (wl_add _ _ (or_intror B1) I1) as [A1 A2]. split; [exact A1|].
        intros s b Hs Hb. rewrite A2, exp_plus, I2, pw_lws, B2 by assumption. reflexivity.
      + split; [exact I1|]. intros s b Hs Hb. rewrite Rmult_1_l. apply I2; assumption.
  Qed.

  (** *** Running a model, as one particle sees it *)
  Definition valp (s b : nat) (cond : option (trace LV)) (a : string) : option (T LS) := option_map (part P s b) (value_in cond a).
  Definition goodcond (cond : option (trace LV)) : Prop := forall ct, cond = Some ct -> goodtr ct.

  Lemma goodnode_new d v p rep : ptens v -> goodnode (mkRV (Proper d) v (logp LV d v) p rep true).
  Proof. intros H. split; [exact H|]. split; [|reflexivity]. apply (log_prob _ _ _ _ _ PL), H. Qed.
  Lemma part_logp s b d v : s < N -> b < B -> ptens v -> part P s b (logp LV d v) = logp LS (dpart P s b d) (part P s b v).
  Proof. intros Hs Hb Hv. apply (log_prob _ _ _ _ _ PL); assumption. Qed.

  Section One.
    Variables (s b : nat) (Hs : s < N) (Hb : b < B).
    Notation pt := (part P s b). Notation vp := (viewp s b).

    Lemma execP_produces cond m m1 : copies_model W N B P s b m m1 -> goodcond cond ->
      forall tr st o tr' st', wf_dict tr -> goodtr tr -> sound tr ->
      poss (exec (L := LV) cond m tr st) (Ok (o, tr'), st') ->
      sound tr' /\ goodtr tr' /\ all_tensors ptens o /\ exists n, produces m1 n (vmap pt o) /\ vp tr' = vp tr ++ n.
    Proof.
      intros H Hgc. induction H as [o0 Ho|a d rep k k1 Hk IH|a d v rep k k1 Hv Hk IH]; intros tr st o tr' st' Hw Hg Hsd H; cbn [exec] in H.
      - apply poss_leaf_inv in H. injection H as <- <- <-. split; [exact Hsd|]. split; [exact Hg|]. split; [exact Ho|].
        exists []. split; [constructor|rewrite app_nil_r; reflexivity].
      - assert (Hfin : forall v p s0, poss (mbind (lift (add_node a (mkRV (Proper d) v (logp LV d v) p rep true) tr))
                (fun tr' => exec cond (k v) tr') s0) (Ok (o, tr'), st') -> ptens v -> prov_eqb p OBSERVED = false ->
                sound tr' /\ goodtr tr' /\ all_tensors ptens o /\ exists n, produces (k1 (pt v)) n (vmap pt o) /\
                vp tr' = vp tr ++ (a, (false, pt v, logp LS (dpart P s b d) (pt v))) :: n).
        { intros v p s0 H0 Hv Ep. rewrite mbind_lift in H0. destruct (add_node _ _ tr) as [tr1|e] eqn:Ea.
          2:{ apply poss_leaf_inv in H0. discriminate. }
          apply add_node_wf in Ea; [|exact Hw]. destruct Ea as (Hw1 & _ & ->).
          assert (Hs1 : sound (tr ++ [(a, mkRV (Proper d) v (logp LV d v) p rep true)])).
          { intros c r Hin. apply in_app_iff in Hin. destruct Hin as [Hin|[Hin|[]]]; [eapply Hsd; exact Hin|].
            injection Hin as <- <-. exists d. split; reflexivity. }
          assert (Hg1 : goodtr (tr ++ [(a, mkRV (Proper d) v (logp LV d v) p rep true)])).
          { apply goodtr_app; [exact Hg|]. intros c r [Hin|[]]. injection Hin as <- <-. apply goodnode_new, Hv. }
          destruct (IH v Hv _ _ _ _ _ Hw1 Hg1 Hs1 H0) as (Hs' & Hg' & Ho & n & Hn & Ev). split; [exact Hs'|]. split; [exact Hg'|]. split; [exact Ho|].
          exists n. split; [exact Hn|]. rewrite Ev, viewp_app, <- app_assoc. cbn [viewp map fst snd app]. unfold is_observed. cbn [rv_prov rv_value rv_logp].
          rewrite Ep, part_logp by assumption. reflexivity. }
        destruct (match cond with Some ct => dget a ct | None => None end) as [r1|] eqn:Er.
        + assert (Hv : ptens (rv_value r1)).
          { destruct cond as [ct|]; [|discriminate]. apply dget_In in Er. apply (Hgc ct eq_refl a r1 Er). }
          destruct (Hfin _ _ _ H Hv eq_refl) as (Hs' & Hg' & Ho & n & Hn & Ev). split; [exact Hs'|]; split; [exact Hg'|]; split; [exact Ho|]. eexists. split; [apply pr_smp; exact Hn|exact Ev].
        + apply poss_draw_inv in H. destruct H as (v & Hv & H). cbn [drawn] in Hv.
          destruct (Hfin _ _ _ H Hv eq_refl) as (Hs' & Hg' & Ho & n & Hn & Ev). split; [exact Hs'|]; split; [exact Hg'|]; split; [exact Ho|]. eexists. split; [apply pr_smp; exact Hn|exact Ev].
      - rewrite mbind_lift in H. destruct (add_node _ _ tr) as [tr1|e] eqn:Ea.
        2:{ apply poss_leaf_inv in H. discriminate. }
        apply add_node_wf in Ea; [|exact Hw]. destruct Ea as (Hw1 & _ & ->).
        assert (Hs1 : sound (tr ++ [(a, mkRV (Proper d) v (logp LV d v) OBSERVED rep true)])).
        { intros c r Hin. apply in_app_iff in Hin. destruct Hin as [Hin|[Hin|[]]]; [eapply Hsd; exact Hin|].
          injection Hin as <- <-. exists d. split; reflexivity. }
        assert (Hg1 : goodtr (tr ++ [(a, mkRV (Proper d) v (logp LV d v) OBSERVED rep true)])).
        { apply goodtr_app; [exact Hg|]. intros c r [Hin|[]]. injection Hin as <- <-. apply goodnode_new, Hv. }
        destruct (IH v Hv _ _ _ _ _ Hw1 Hg1 Hs1 H) as (Hs' & Hg' & Ho & n & Hn & Ev). split; [exact Hs'|]; split; [exact Hg'|]; split; [exact Ho|].
        eexists. split; [apply pr_obs; exact Hn|]. rewrite Ev, viewp_app, <- app_assoc. cbn [viewp map fst snd app]. unfold is_observed. cbn [rv_prov rv_value rv_logp prov_eqb].
        rewrite part_logp by assumption. reflexivity.
    Qed.

    Lemma execP_E cond m m1 : copies_model W N B P s b m m1 -> goodcond cond ->
      forall tr st F, wf_dict tr ->
      (forall a, samples m1 a -> value_in cond a <> None -> latent_in_opt cond a = true) ->
      quietP (exec (L := LV) cond m tr st) ->
      EV (exec cond m tr st) (okP (fun x => (lu M (latent_in_opt cond) (vp (snd x)) * F (vp (snd x)) (vmap pt (fst x)))%R)) =
      (lu M (latent_in_opt cond) (vp tr) * WC M (valp s b cond) m1 (fun n o => F (vp tr ++ n) o))%R.
    Proof.
      intros H Hgc. induction H as [o0 Ho|a d rep k k1 Hk IH|a d v rep k k1 Hv Hk IH]; intros tr st F Hw Hc Hq; cbn [exec] in *.
      - cbn. rewrite app_nil_r. reflexivity.
      - set (fin v p := mbind (lift (add_node a (mkRV (Proper d) v (logp LV d v) p rep true) tr)) (fun tr' => exec cond (k v) tr')) in *.
        assert (Hfin : forall v p s0, quietP (fin v p s0) -> ptens v -> prov_eqb p OBSERVED = false ->
          EV (fin v p s0) (okP (fun x => (lu M (latent_in_opt cond) (vp (snd x)) * F (vp (snd x)) (vmap pt (fst x)))%R)) =
          (lu M (latent_in_opt cond) (vp tr) * ((if latent_in_opt cond a then pmass M (dpart P s b d) (pt v) else 1) *
             WC M (valp s b cond) (k1 (pt v)) (fun n o => F (vp tr ++ (a, (false, pt v, logp LS (dpart P s b d) (pt v))) :: n) o)))%R).
        { intros v p s0 Hq0 Hv Ep. unfold fin in *. rewrite mbind_lift in *.
          destruct (add_node a _ tr) as [tr1|e] eqn:Ea.
          2:{ destruct (Hq0 (Err e, s0)) as [x Hx]; [constructor|discriminate]. }
          apply add_node_wf in Ea; [|exact Hw]. destruct Ea as (Hw1 & _ & ->).
          rewrite IH; [|exact Hv|exact Hw1| |exact Hq0].
          2:{ intros c Hc'. apply Hc. econstructor. exact Hc'. }
          rewrite viewp_app, lu_app. cbn [viewp map fst snd lu]. unfold is_observed. cbn [rv_prov rv_logp rv_value].
          rewrite Ep, part_logp by assumption. cbn [orb]. unfold pmass.
          rewrite Rmult_1_r, Rmult_assoc. do 2 f_equal. apply (WC_ext M ML). intros n o. rewrite <- app_assoc. reflexivity. }
        assert (Hcase : valp s b cond a = option_map (fun r => pt (rv_value r)) (match cond with Some ct => dget a ct | None => None end)).
        { unfold valp, value_in. destruct cond as [ct|]; [destruct (dget a ct)|]; reflexivity. }
        cbn [WC]. rewrite Hcase.
        destruct (match cond with Some ct => dget a ct | None => None end) as [r1|] eqn:Er; cbn [option_map].
        + assert (Hv : ptens (rv_value r1)).
          { destruct cond as [ct|]; [|discriminate]. apply dget_In in Er. apply (Hgc ct eq_refl a r1 Er). }
          etransitivity; [exact (Hfin _ REUSED st Hq Hv eq_refl)|].
          rewrite (Hc a); [reflexivity|constructor|]. destruct cond as [ct|]; [|discriminate]. cbn. rewrite Er. discriminate.
        + cbn [expectation]. assert (El : latent_in_opt cond a = false).
          { destruct cond as [ct|]; [|reflexivity]. cbn. unfold latent_in. rewrite Er. reflexivity. }
          rewrite (mean_ext _ _ _ _ _ PL d _ (fun v => (lu M (latent_in_opt cond) (vp tr) *
            (fun x => WC M (valp s b cond) (k1 x) (fun n o => F (vp tr ++ (a, (false, x, logp LS (dpart P s b d) x)) :: n) o)) (pt v))%R)).
          2:{ intros v Hv. change (EV (fin v SAMPLED st) (okP (fun x => (lu M (latent_in_opt cond) (vp (snd x)) * F (vp (snd x)) (vmap pt (fst x)))%R)) = 
              (lu M (latent_in_opt cond) (vp tr) * WC M (valp s b cond) (k1 (pt v)) (fun n o => F (vp tr ++ (a, (false, pt v, logp LS (dpart P s b d) (pt v))) :: n) o))%R).
              rewrite (Hfin v SAMPLED st); [|intros x Hx; apply Hq; econstructor; [exact Hv|exact Hx]|exact Hv|reflexivity].
              rewrite El, Rmult_1_l. reflexivity. }
          rewrite (mean_scale _ _ _ _ _ PL). f_equal.
          exact (mean_part _ _ _ _ _ PL d s b (fun x => WC M (valp s b cond) (k1 x) (fun n o => F (vp tr ++ (a, (false, x, logp LS (dpart P s b d) x)) :: n) o)) Hs Hb).
      - rewrite mbind_lift in *. destruct (add_node _ _ tr) as [tr1|e] eqn:Ea.
        2:{ destruct (Hq (Err e, st)) as [x Hx]; [constructor|discriminate]. }
        apply add_node_wf in Ea; [|exact Hw]. destruct Ea as (Hw1 & _ & ->).
        rewrite IH; [|exact Hv|exact Hw1| |exact Hq].
        2:{ intros c Hc'. apply Hc. econstructor. exact Hc'. }
        rewrite viewp_app, lu_app. cbn [viewp map fst snd lu WC]. unfold is_observed. cbn [rv_prov rv_logp rv_value prov_eqb orb].
        rewrite part_logp by assumption. unfold pmass.
        rewrite Rmult_1_r, Rmult_assoc. do 2 f_equal. apply (WC_ext M ML). intros n o. rewrite <- app_assoc. reflexivity.
    Qed.

    (** *** Running a Program *)
    Definition wtp (F : nodes -> pyval (T LS) -> R) : res (out LV) * st LV -> R :=
      okP (fun o => (exp (pw s b (out_lw o)) * F (vp (out_trace o)) (vmap pt (out_output o)))%R).

    Lemma progP_E oid sg m c kws st m1 F : wf_st st -> k_sd kws = VInt 0 -> k_bd kws = VInt 1 ->
      copies_model W N B P s b (m c (prog_kwargs sg kws)) m1 -> goodcond (get_cond oid st) ->
      (forall a, samples m1 a -> value_in (get_cond oid st) a <> None -> latent_in_opt (get_cond oid st) a = true) ->
      quietP (run (L := LV) (IProg oid sg m) c kws st) ->
      EV (run (IProg oid sg m) c kws st) (wtp F) = WC M (valp s b (get_cond oid st)) m1 F.
    Proof.
      intros Hst Hsd Hbd Hp Hgc Hc Hq.
      assert (Hcl : clash ["self"] kws || clash (firstn 3 (s_args sg)) (prog_kwargs sg kws) = false).
      { cbn [run] in Hq. unfold forward in Hq. fold (k_sd kws) (k_bd kws) (k_rep kws) (prog_kwargs sg kws) in Hq.
        destruct (clash ["self"] kws || clash (firstn 3 (s_args sg)) (prog_kwargs sg kws)) eqn:E; [|reflexivity].
        destruct (Hq (Err TypeError, st)) as [x Hx]; [constructor|discriminate]. }
      pose proof (forward_eq oid sg m c kws st Hcl) as Heq.
      pose proof (teq_quietP _ _ Heq Hq) as Hq'. pose proof (quietP_after _ _ Hq') as [Hqe Hqt].
      cbn [run]. rewrite (EV_teq _ _ _ Heq), EV_after by exact Hqe.
      transitivity (lu M (latent_in_opt (get_cond oid st)) (vp []) *
        WC M (valp s b (get_cond oid st)) m1 (fun n o => F (vp [] ++ n) o))%R.
      2:{ cbn [viewp map lu app]. rewrite Rmult_1_l. reflexivity. }
      rewrite <- (execP_E (get_cond oid st) _ m1 Hp Hgc [] _ F (wf_nil (V := rv LV)) Hc Hqe).
      apply EV_ext. intros [[[o tr]|e] s1] Hx; [|reflexivity]. unfold okP at 1. cbn [fst snd expectation].
      destruct (Hqt _ _ Hx (prog_tail kws (get_cond oid st) (o, tr), s1)) as [r Hr]; [constructor|]. cbn [fst] in Hr. rewrite Hr.
      assert (Hret : returns (forward (L := LV) oid sg m c kws) st r s1).
      { unfold returns. eapply teq_outcome; [apply teq_sym; exact Heq|]. apply outcome_tbind. exists (Ok (o, tr), s1).
        split; [apply poss_outcome; exact Hx|]. unfold after. cbn [fst snd]. rewrite Hr. constructor. }
      apply forward_weight in Hret; [|exact HL|exact Hst]. destruct Hret as [_ Hw].
      destruct (execP_produces _ _ _ Hp Hgc _ _ _ _ _ (wf_nil (V := rv LV)) ltac:(intros a x []) ltac:(intros a x []) Hx) as (_ & Hg & _).
      assert (Etr : out_trace r = tr /\ out_output r = o).
      { unfold prog_tail in Hr. destruct (log_joint _ _ _ _ _) as [lwv|e]; cbn [rbind] in Hr; [|discriminate]. injection Hr as <-. split; reflexivity. }
      destruct Etr as [Et Eo]. unfold wtp, okP. cbn [fst]. fold (k_sd kws) (k_bd kws) in Hw. rewrite Hsd, Hbd in Hw.
      rewrite Hw, Et, Eo. f_equal. apply (pw_logp_sum (latent_in_opt (get_cond oid st)) tr Hg); assumption.
    Qed.

    Lemma progP_out oid sg m c kws st m1 o st' : wf_st st -> k_sd kws = VInt 0 -> k_bd kws = VInt 1 ->
      copies_model W N B P s b (m c (prog_kwargs sg kws)) m1 -> goodcond (get_cond oid st) ->
      poss (run (L := LV) (IProg oid sg m) c kws st) (Ok o, st') ->
      sound (out_trace o) /\ wf_dict (out_trace o) /\ goodtr (out_trace o) /\ weightlike (out_lw o) /\ all_tensors ptens (out_output o) /\
      exp (pw s b (out_lw o)) = lu M (latent_in_opt (get_cond oid st)) (vp (out_trace o)) /\
      produces m1 (vp (out_trace o)) (vmap pt (out_output o)).
    Proof.
      intros Hst Hsd Hbd Hp Hgc Ho.
      assert (Hcl : clash ["self"] kws || clash (firstn 3 (s_args sg)) (prog_kwargs sg kws) = false).
      { cbn [run] in Ho. unfold forward in Ho. fold (k_sd kws) (k_bd kws) (k_rep kws) (prog_kwargs sg kws) in Ho.
        destruct (clash ["self"] kws || clash (firstn 3 (s_args sg)) (prog_kwargs sg kws)) eqn:E; [|reflexivity].
        apply poss_leaf_inv in Ho. discriminate. }
      pose proof (poss_outcome _ _ Ho) as Hret. apply (forward_weight LV HL oid sg m c kws st o st' Hst) in Hret. destruct Hret as [_ Hw].
      pose proof (poss_teq _ _ _ (forward_eq oid sg m c kws st Hcl) Ho) as H.
      apply poss_tbind in H. destruct H as ([[[ou tr]|e] s1] & H1 & H2); unfold after in H2; cbn [fst snd] in H2; apply poss_leaf_inv in H2; [|discriminate].
      unfold prog_tail in H2. destruct (log_joint _ _ _ _ _) as [lwv|e]; cbn [rbind] in H2; [|discriminate].
      injection H2 as -> ->. cbn [out_trace out_output] in *.
      pose proof (exec_inv _ _ _ _ _ _ (wf_nil (V := rv LV)) (poss_outcome _ _ H1)) as (_ & _ & _ & Hwf).
      destruct (execP_produces _ _ _ Hp Hgc _ _ _ _ _ (wf_nil (V := rv LV)) ltac:(intros a x []) ltac:(intros a x []) H1) as (Hs' & Hg & Hou & n & Hn & Ev).
      cbn in Ev. fold (k_sd kws) (k_bd kws) in Hw. rewrite Hsd, Hbd in Hw.
      pose proof (pw_logp_sum (latent_in_opt (get_cond oid st)) tr Hg) as [Hwl Hpw].
      split; [exact Hs'|]. split; [eapply Hwf; reflexivity|]. split; [exact Hg|].
      split; [rewrite Hw; exact Hwl|]. split; [exact Hou|]. split; [rewrite Hw; apply Hpw; assumption|]. rewrite Ev. exact Hn.
    Qed.

    (** *** The targets: Extend *)
    Definition suppliesP (C : list string) (ct : trace LV) (m1 : model LS) : Prop :=
      wf_dict ct /\ goodtr ct /\ (forall a, In a C -> latent_in ct a = true) /\
      (forall a, samples m1 a -> value_in (Some ct) a <> None -> latent_in ct a = true).
    Definition dims (kws : dict (pyval (T LV))) : Prop := k_sd kws = VInt 0 /\ k_bd kws = VInt 1.
    Lemma dims_sub ix kws : dims kws -> dims (sub_kwargs ix kws).
    Proof. intros H. exact H. Qed.
    Lemma sub_part ix ix1 kws : no_tensor ix -> ix1 = vmap (part P 0 0) ix ->
      sub_kwargs (L := LS) ix1 (kmap pt kws) = kmap pt (sub_kwargs (L := LV) ix kws).
    Proof. intros Hn ->. rewrite (vmap_nt _ pt _ Hn). apply sub_kwargs_kmap. Qed.
    Lemma copies_oid t t1 : copies W N B P t t1 -> oid_of t1 = oid_of t /\ substituted t1 = substituted t.
    Proof.
      induction 1 as [oid sg m m1 Hm|oid p p1 f f1 o o1 Hp IHp Hf IHf|oid q2 q21 q1 q11 o o1 H2 IH2 H1 IH1
                     |oid p p1 q q1 o o1 nr Hp IHp Hq IHq|oid q q1 ix ix1 l0 l01 rs1 dbg dbg1 Hq IHq]; cbn [oid_of substituted]; split; try reflexivity.
      - destruct IHp as [E1 E2], IHf as [E3 E4]. rewrite E1, E2, E3, E4. reflexivity.
      - destruct IH2 as [E1 E2], IH1 as [E3 E4]. rewrite E2, E4. reflexivity.
      - destruct IHp as [E1 E2], IHq as [E3 E4]. rewrite E1, E2, E4. reflexivity.
      - apply IHq.
    Qed.

    Lemma mviewp_app (t t' : trace LV) : disjoint_keys t t' -> mview (dkeys t) (vp (t ++ t')) = vp t.
    Proof.
      intros Hd. transitivity (vp (filter (fun ar => mem (fst ar) (dkeys t)) (t ++ t'))).
      - generalize (t ++ t') as l. induction l as [|[k v] l IH]; [reflexivity|]. cbn [viewp mview map filter fst snd].
        change (map _ l) with (vp l). fold (mview (dkeys t) (vp l)). destruct (mem k (dkeys t)); cbn; [f_equal|]; exact IH.
      - rewrite filter_keys_app by exact Hd. reflexivity.
    Qed.
    Definition wt4p (F : nodes -> pyval (T LS) -> nodes -> pyval (T LS) -> R) : res (out LV) * st LV -> R :=
      okP (fun r => match out_marginal r with
                    | Some (ks, mo) => (exp (pw s b (out_lw r)) * F (vp (out_trace r)) (vmap pt (out_output r)) (mview ks (vp (out_trace r))) (vmap pt mo))%R
                    | None => 0%R
                    end).

    Definition targetP_spec (C : list string) (t : inf LV) (t1 : inf LS) : Prop :=
      forall c kws st ct, all_tensors ptens c -> target_ok M sp C t1 (vmap pt c) (kmap pt kws) -> wf_dict kws -> wf_st st ->
      clash ["self"; "c"; "fn"] kws = false -> dims kws ->
      get_cond (oid_of t) st = Some ct -> suppliesP C ct (target t1 (vmap pt c) (kmap pt kws)) -> quietP (run t c kws st) ->
      norand (run t c kws st) /\
      (forall F, EV (run t c kws st) (wtp F) = WC M (valp s b (Some ct)) (target t1 (vmap pt c) (kmap pt kws)) F) /\
      (forall o st', poss (run t c kws st) (Ok o, st') ->
         sound (out_trace o) /\ wf_dict (out_trace o) /\ goodtr (out_trace o) /\ weightlike (out_lw o) /\ all_tensors ptens (out_output o) /\
         produces (target t1 (vmap pt c) (kmap pt kws)) (vp (out_trace o)) (vmap pt (out_output o))).

    Lemma extend_coreP C oid p p1 fid sg m m1 o o1 : copies W N B P p p1 -> copies W N B P (IProg fid sg m) (IProg fid sg m1) ->
      no_tensor (in_ix o) -> in_ix o1 = vmap (part P 0 0) (in_ix o) -> targetP_spec C p p1 ->
      forall c kws st ct, all_tensors ptens c -> target_ok M sp C (IExtend oid p1 (IProg fid sg m1) o1) (vmap pt c) (kmap pt kws) ->
      wf_dict kws -> wf_st st -> clash ["self"; "c"; "fn"] kws = false -> dims kws ->
      get_cond oid st = Some ct -> suppliesP C ct (target (IExtend oid p1 (IProg fid sg m1) o1) (vmap pt c) (kmap pt kws)) ->
      quietP (run (IExtend oid p (IProg fid sg m) o) c kws st) ->
      let kws' := kmap pt (sub_kwargs (in_ix o) kws) in
      norand (run (IExtend oid p (IProg fid sg m) o) c kws st) /\
      (forall F, EV (run (IExtend oid p (IProg fid sg m) o) c kws st) (wt4p F) =
         WC M (valp s b (Some ct)) (target p1 (vmap pt c) kws') (fun n1 r1 =>
           WC M (valp s b (Some ct)) (m1 r1 (prog_kwargs sg kws')) (fun n2 r2 => F (n1 ++ n2) r2 n1 r1))) /\
      (forall r s', poss (run (IExtend oid p (IProg fid sg m) o) c kws st) (Ok r, s') ->
         exists n1 r1 n2 tp, out_marginal r = Some (dkeys tp, r1) /\ vp tp = n1 /\ vp (out_trace r) = n1 ++ n2 /\
           filter (fun ar => mem (fst ar) (dkeys tp)) (out_trace r) = tp /\
           sound (out_trace r) /\ wf_dict (out_trace r) /\ goodtr (out_trace r) /\ weightlike (out_lw r) /\
           all_tensors ptens (out_output r) /\ all_tensors ptens r1 /\
           produces (target p1 (vmap pt c) kws') n1 (vmap pt r1) /\
           produces (m1 (vmap pt r1) (prog_kwargs sg kws')) n2 (vmap pt (out_output r))).
    Proof.
      intros Hcp Hcf Hnt Eix IH c kws st ct Hca Hok Hk Hst Hcl Hdm Hcond Hsup Hq.
      destruct (copies_oid _ _ Hcp) as [Eoid Esub].
      destruct Hok as (Hself & Hfp & Hokp & Hokf). pose proof (wf_sub_kwargs (in_ix o) kws Hk) as Hk'.
      pose proof (clash_sub3 (in_ix o) kws Hcl) as Hcl'. destruct Hsup as (Wct & Gct & HC & Hval).
      cbn [target] in Hval. rewrite (sub_part _ _ kws Hnt Eix) in Hokp, Hokf, Hval.
      cbv zeta. set (kws' := sub_kwargs (in_ix o) kws) in *.
      pose proof (run_extend_eq oid p (IProg fid sg m) o c kws st Hk Hst Hcl) as Heq. cbn zeta in Heq. rewrite Hcond in Heq. fold kws' in Heq.
      cbn [oid_of] in Heq. set (sp0 := set_cond fid (Some ct) (set_cond (oid_of p) (Some ct) st)) in *.
      assert (Hdm' : dims kws') by (exact (dims_sub _ _ Hdm)).
      assert (Wsp : wf_st sp0) by (repeat apply wf_set_cond; try assumption; intros t [= <-]; exact Wct).
      assert (Cp : get_cond (oid_of p) sp0 = Some ct).
      { unfold sp0. destruct (Nat.eq_dec (oid_of p) fid) as [->|Hne]; [apply get_set_same|]. rewrite get_set_other by exact Hne. apply get_set_same. }
      assert (Cf : get_cond fid sp0 = Some ct) by apply get_set_same.
      assert (Hoid : oid <> oid_of p /\ oid <> fid /\ ~ In oid (substituted p)).
      { cbn [substituted oid_of In] in Hself. rewrite in_app_iff in Hself. cbn in Hself. rewrite Eoid, Esub in Hself. intuition congruence. }
      destruct Hoid as (Hop & Hof & Hosub). rewrite Esub in Hfp.
      assert (Co : get_cond oid sp0 = Some ct) by (unfold sp0; rewrite !get_set_other by assumption; exact Hcond).
      assert (Hsupp : suppliesP C ct (target p1 (vmap pt c) (kmap pt kws'))).
      { split; [exact Wct|]. split; [exact Gct|]. split; [exact HC|]. intros a Ha. apply Hval. apply samples_mseq_l, Ha. }
      pose proof (teq_quietP _ _ Heq Hq) as Hq'.
      assert (Hqp : quietP (run p c kws' sp0)).
      { intros [[a|e] s1] Hx; [eexists; reflexivity|].
        edestruct Hq' as [x Hb']; [apply poss_tbind; exists (Err e, s1); split; [exact Hx|constructor]|discriminate]. }
      destruct (IH c kws' sp0 ct Hca Hokp Hk' Wsp Hcl' Hdm' Cp Hsupp Hqp) as (IHN & IHE & IHo).
      inversion Hcf as [oid' sg' m' m1' Hcm| | | |]; subst oid' sg' m' m1'.
      (* the kernel's run, for an outcome of p *)
      assert (Hstep : forall po s1, poss (run p c kws' sp0) (Ok po, s1) ->
         let k := m1 (vmap pt (out_output po)) (prog_kwargs sg (kmap pt kws')) in
         sound (out_trace po) /\ wf_dict (out_trace po) /\ goodtr (out_trace po) /\ weightlike (out_lw po) /\ all_tensors ptens (out_output po) /\
         produces (target p1 (vmap pt c) (kmap pt kws')) (vp (out_trace po)) (vmap pt (out_output po)) /\
         copies_model W N B P s b (m (out_output po) (prog_kwargs sg kws')) k /\
         pure M sp k /\ (forall a, ~ observes k a) /\ (forall a, samples k a -> In a C) /\
         wf_st s1 /\ get_cond fid s1 = Some ct /\
         quietP (run (IProg fid sg m) (out_output po) kws' s1) /\
         forall fo s2, poss (run (IProg fid sg m) (out_output po) kws' s1) (Ok fo, s2) ->
           sound (out_trace fo) /\ wf_dict (out_trace fo) /\ goodtr (out_trace fo) /\ all_tensors ptens (out_output fo) /\
           exp (pw s b (out_lw fo)) = lu M (latent_in ct) (vp (out_trace fo)) /\
           produces k (vp (out_trace fo)) (vmap pt (out_output fo)) /\
           exists r, extend_tail o kws (Some ct) po fo = Ok r /\
             get_cond oid (set_cond (oid_of p) None (set_cond fid None s2)) = Some ct).
      { intros po s1 Hp k. destruct (IHo _ _ Hp) as (Sp & Wp & Gp & Lp & Ap & Pp). do 5 (split; [assumption|]). split; [exact Pp|].
        assert (Hck : copies_model W N B P s b (m (out_output po) (prog_kwargs sg kws')) k).
        { unfold k. rewrite prog_kwargs_kmap. apply Hcm; assumption. }
        split; [exact Hck|].
        destruct (Hokf _ (produces_value _ _ _ Pp)) as (Hpk & Hob & Hsm). fold k in Hpk, Hob, Hsm.
        split; [exact Hpk|]. split; [exact Hob|]. split; [exact Hsm|].
        pose proof (run_scoped _ _ _ _ _ _ _ (poss_outcome _ _ Hp)) as (Hsc & _).
        assert (W1 : wf_st s1) by (eapply run_wf_st; [apply (poss_outcome _ _ Hp)|exact Wsp]).
        assert (Cf1 : get_cond fid s1 = Some ct) by (rewrite Hsc by exact Hfp; exact Cf).
        split; [exact W1|]. split; [exact Cf1|].
        assert (Hqf : quietP (run (IProg fid sg m) (out_output po) kws' s1)).
        { intros [[a|e] s2] Hx; [eexists; reflexivity|].
          edestruct Hq' as [x Hb']; [apply poss_tbind; exists (Ok po, s1); split; [exact Hp|cbn [fst snd]; apply poss_tbind; exists (Err e, s2); split; [exact Hx|constructor]]|discriminate]. }
        split; [exact Hqf|]. intros fo s2 Hf.
        assert (Gc1 : goodcond (get_cond fid s1)) by (rewrite Cf1; intros t [= <-]; exact Gct).
        destruct (progP_out _ _ _ _ _ _ _ _ _ W1 (proj1 Hdm') (proj2 Hdm') Hck Gc1 Hf) as (Sf & Wf & Gf & _ & Af & Ef & Pf). rewrite Cf1 in Ef.
        do 4 (split; [assumption|]). split; [exact Ef|]. split; [exact Pf|].
        pose proof (run_scoped _ _ _ _ _ _ _ (poss_outcome _ _ Hf)) as (Hsc2 & _).
        assert (Co2 : get_cond oid (set_cond (oid_of p) None (set_cond fid None s2)) = Some ct).
        { rewrite !get_set_other by assumption. rewrite Hsc2 by (intros []). rewrite Hsc by exact Hosub. exact Co. }
        edestruct Hq' as [r Hr].
        { apply poss_tbind. exists (Ok po, s1). split; [exact Hp|]. cbn [fst snd]. apply poss_tbind. exists (Ok fo, s2).
          split; [exact Hf|]. cbn [fst snd]. constructor. }
        cbn [fst] in Hr. rewrite Co2 in Hr. exists r. split; [exact Hr|exact Co2]. }
      split; [|split].
      - eapply norand_teq; [apply teq_sym; exact Heq|]. apply norand_tbind; [exact IHN|]. intros [[po|e] s1] Hp; [|exact I]. cbn [fst snd].
        apply norand_tbind; [apply norand_prog|]. intros [[fo|e] s2] Hf; exact I.
      - intros F. rewrite (EV_teq _ _ _ Heq), EV_tbind. rewrite <- IHE. apply EV_ext. intros [[po|e] s1] Hp.
        2:{ destruct (Hqp _ Hp). discriminate. }
        destruct (Hstep _ _ Hp) as (Sp & Wp & Gp & Lp & Ap & Pp & Hck & Hpk & Hob & Hsm & W1 & Cf1 & Hqf & Hfo). cbn zeta in Hfo.
        unfold wtp, okP at 1. cbn [fst snd]. rewrite EV_tbind.
        set (k := m1 (vmap pt (out_output po)) (prog_kwargs sg (kmap pt kws'))) in *.
        rewrite (WC_ext_on M ML _ k _ (fun n2 o2 => (lu M (fun _ => true) n2 * / lu M (latent_in ct) n2 * F (vp (out_trace po) ++ n2) o2 (vp (out_trace po)) (vmap pt (out_output po)))%R)).
        2:{ intros n2 o2 Pn. rewrite (lu_ext M (fun _ => true) (latent_in ct) n2).
            - rewrite Rinv_r by (apply Rgt_not_eq, lu_pos). ring.
            - intros a v l Hin. symmetry. apply HC, Hsm. eapply produces_latent; eassumption. }
        rewrite <- Cf1.
        rewrite <- (progP_E fid sg m (out_output po) kws' s1); [|exact W1|apply Hdm'|apply Hdm'|exact Hck|rewrite Cf1; intros t [= <-]; exact Gct| |exact Hqf].
        2:{ intros a Ha _. rewrite Cf1. cbn. apply HC, Hsm, Ha. }
        rewrite <- EV_scale by apply norand_prog. apply EV_ext. intros [[fo|e] s2] Hf.
        2:{ destruct (Hqf _ Hf). discriminate. }
        destruct (Hfo _ _ Hf) as (Sf & Wf & Gf & Af & Ef & Pf & r & Hr & Co2). cbn [fst snd expectation]. rewrite Co2, Hr.
        destruct (extend_tail_facts HL _ _ _ _ _ _ Wp Wf Hr) as (Et & Hd & Elw & Eo & Em).
        rewrite (proj1 Hdm), (proj2 Hdm) in Elw.
        destruct (pw_logp_sum (fun _ => true) _ Gf) as [Ls1 Ls2].
        unfold wt4p, wtp, okP. cbn [fst]. rewrite Em, Elw, Eo, Et, mviewp_app by exact Hd. rewrite viewp_app.
        rewrite (proj2 (wl_add _ _ Lp Ls1)), exp_plus, Ls2 by assumption.
        rewrite Ef. pose proof (lu_pos M (latent_in ct) (vp (out_trace fo))). field. lra.
      - intros r s' Hr. apply (poss_teq _ _ _ Heq) in Hr. apply poss_tbind in Hr. destruct Hr as ([[po|e] s1] & Hp & Hr); cbn [fst snd] in Hr.
        2:{ apply poss_leaf_inv in Hr. discriminate. }
        destruct (Hstep _ _ Hp) as (Sp & Wp & Gp & Lp & Ap & Pp & Hck & Hpk & Hob & Hsm & W1 & Cf1 & Hqf & Hfo). cbn zeta in Hfo.
        apply poss_tbind in Hr. destruct Hr as ([[fo|e] s2] & Hf & Hr); cbn [fst snd] in Hr; apply poss_leaf_inv in Hr; [|discriminate].
        destruct (Hfo _ _ Hf) as (Sf & Wf & Gf & Af & Ef & Pf & r' & Hr' & Co2). rewrite Co2, Hr' in Hr. injection Hr as -> ->.
        destruct (extend_tail_facts HL _ _ _ _ _ _ Wp Wf Hr') as (Et & Hd & Elw & Eo & Em).
        rewrite (proj1 Hdm), (proj2 Hdm) in Elw.
        destruct (pw_logp_sum (fun _ => true) _ Gf) as [Ls1 Ls2].
        exists (vp (out_trace po)), (out_output po), (vp (out_trace fo)), (out_trace po).
        split; [exact Em|]. split; [reflexivity|]. rewrite Et. split; [apply viewp_app|]. split; [apply filter_keys_app, Hd|].
        split. { intros a v Hin. apply in_app_iff in Hin. destruct Hin; [eapply Sp|eapply Sf]; eassumption. }
        split; [apply wf_app; assumption|]. split; [apply goodtr_app; assumption|]. split; [rewrite Elw; apply wl_add; assumption|].
        rewrite Eo. split; [exact Af|]. split; [exact Ap|]. split; [exact Pp|]. exact Pf.
    Qed.

    Lemma targetP_all C t t1 : copies W N B P t t1 -> targetP_spec C t t1.
    Proof.
      intros Hcp. induction Hcp as [oid sg m m1 Hm|oid p p1 f f1 o o1 Hp IHp Hf IHf Hnt Eix|oid q2 q21 q1 q11 o o1 H2 IH2 H1 IH1 Hnt Eix
                     |oid p p1 q q1 o o1 nr Hp IHp Hq IHq Hnt Eix|oid q q1 ix ix1 l0 l01 rs1 dbg dbg1 Hq IHq Hnt Eix];
        intros c kws st ct Hca Hok Hk Hst Hcl Hdm Hcond Hsup Hqu; try (destruct Hok; fail).
      - cbn [target_ok target oid_of] in *. rewrite prog_kwargs_kmap in *.
        pose proof (Hm s b c (prog_kwargs sg kws) Hs Hb Hca) as Hck. destruct Hsup as (Wct & Gct & HC & Hval).
        assert (Gc : goodcond (get_cond oid st)) by (rewrite Hcond; intros t [= <-]; exact Gct).
        split; [apply norand_prog|]. split.
        + intros F. rewrite <- Hcond. apply progP_E; try assumption; try apply Hdm. rewrite Hcond. exact Hval.
        + intros r s' Hr. destruct (progP_out _ _ _ _ _ _ _ _ _ Hst (proj1 Hdm) (proj2 Hdm) Hck Gc Hr) as (R1 & R2 & R3 & R4 & R5 & _ & R7).
          do 5 (split; [assumption|]). exact R7.
      - destruct f1 as [fid sg m1| | | |]; try (destruct Hok; fail). inversion Hf as [? ? m ? Hm| | | |]; subst. cbn [oid_of] in Hcond.
        destruct (extend_coreP C oid p p1 fid sg m m1 o o1 Hp Hf Hnt Eix IHp c kws st ct Hca Hok Hk Hst Hcl Hdm Hcond Hsup Hqu) as (HN' & HE & Ho).
        cbn [target]. rewrite (sub_part _ _ kws Hnt Eix). split; [exact HN'|]. split.
        + intros F. rewrite WC_mseq by exact ML. rewrite <- (HE (fun n o _ _ => F n o)).
          apply EV_ext. intros [[r|e] s'] Hr; [|reflexivity]. destruct (Ho _ _ Hr) as (n1 & r1 & n2 & tp & Em & _).
          unfold wtp, wt4p, okP. cbn [fst]. rewrite Em. reflexivity.
        + intros r s' Hr. destruct (Ho _ _ Hr) as (n1 & r1 & n2 & tp & Em & _ & Ev & _ & Sr & Wr & Gr & Lr & Ar & _ & P1 & P2).
          do 5 (split; [assumption|]). rewrite Ev. eapply produces_seq; eassumption.
    Qed.

    Definition wtmp (p : inf LV) (F : nodes -> pyval (T LS) -> R) : res (out LV) * st LV -> R :=
      match p with IExtend _ _ _ _ => wt4p (fun _ _ => F) | _ => wtp F end.

    Lemma kept_factsP C p p1 c kws st ct : copies W N B P p p1 -> all_tensors ptens c ->
      target_ok M sp C p1 (vmap pt c) (kmap pt kws) -> wf_dict kws -> wf_st st -> clash ["self"; "c"; "fn"] kws = false -> dims kws ->
      get_cond (oid_of p) st = Some ct -> suppliesP C ct (target p1 (vmap pt c) (kmap pt kws)) -> quietP (run p c kws st) ->
      (forall F, EV (run p c kws st) (wtmp p F) = WCm M (valp s b (Some ct)) p1 (vmap pt c) (kmap pt kws) F) /\
      (forall r s' mt mo, poss (run p c kws st) (Ok r, s') -> target_part p r mt mo ->
         sound mt /\ goodtr mt /\ all_tensors ptens mo /\ produces (kept p1 (vmap pt c) (kmap pt kws)) (vp mt) (vmap pt mo) /\
         forall F s1, wtmp p F (Ok r, s1) = (exp (pw s b (out_lw r)) * F (vp mt) (vmap pt mo))%R).
    Proof.
      intros Hcp Hca Hok Hk Hst Hcl Hdm Hcond Hsup Hq.
      inversion Hcp as [oid sg m m1 Hm E1 E2|oid p' p1' f f1 o o1 Hp Hf Hnt Eix E1 E2|oid q2 q21 q1 q11 o o1 H2 H1 Hnt Eix E1 E2
                       |oid p' p1' q q1 o o1 nr Hp Hq1 Hnt Eix E1 E2|oid q q1 ix ix1 l0 l01 rs1 dbg dbg1 Hq1 Hnt Eix E1 E2];
        rewrite <- E1, <- E2 in *; clear E1 E2; try (destruct Hok; fail).
      - destruct (targetP_all C _ _ Hcp c kws st ct Hca Hok Hk Hst Hcl Hdm Hcond Hsup Hq) as (_ & HE & Ho). split; [exact HE|].
        intros r s' mt mo Hr Ht. destruct (Ho _ _ Hr) as (Sr & Wr & Gr & Lr & Ar & Pr). destruct Ht as [-> ->].
        split; [exact Sr|]. split; [exact Gr|]. split; [exact Ar|]. split; [exact Pr|]. intros F s1. reflexivity.
      - destruct f1 as [fid sg m1| | | |]; try (destruct Hok; fail).
        assert (Ef : exists m, f = IProg fid sg m) by (inversion Hf; eexists; reflexivity). destruct Ef as [m ->]. cbn [oid_of] in Hcond.
        destruct (extend_coreP C oid p' p1' fid sg m m1 o o1 Hp Hf Hnt Eix (targetP_all C p' p1' Hp) c kws st ct Hca Hok Hk Hst Hcl Hdm Hcond Hsup Hq) as (_ & HE & Ho).
        cbn [WCm kept target]. rewrite (sub_part _ _ kws Hnt Eix).
        split; [intros F; exact (HE (fun _ _ => F))|].
        intros r s' mt mo Hr Ht. destruct (Ho _ _ Hr) as (n1 & r1 & n2 & tp & Em & Ev1 & Ev & Ef & Sr & Wr & Gr & Lr & Ar & A1 & P1 & P2).
        destruct Ht as (mk & Em' & Et). rewrite Em in Em'. injection Em' as <- <-. rewrite Ef in Et. subst mt.
        split. { intros a v Hin. apply (Sr a v). rewrite <- Ef in Hin. apply filter_In in Hin. apply Hin. }
        split. { intros a v Hin. apply (Gr a v). rewrite <- Ef in Hin. apply filter_In in Hin. apply Hin. }
        split; [exact A1|].
        split; [rewrite Ev1; exact P1|]. intros F s1. unfold wtmp, wt4p, okP. cbn [fst]. rewrite Em.
        assert (Ev2 : mview (dkeys tp) (vp (out_trace r)) = vp tp); [|rewrite Ev2; reflexivity].
        rewrite <- Ef at 2. clear. induction (out_trace r) as [|[k v] l IH]; [reflexivity|].
        cbn [viewp mview map filter fst snd]. change (map _ l) with (vp l). fold (mview (dkeys tp) (vp l)).
        destruct (mem k (dkeys tp)); cbn; [f_equal|]; exact IH.
    Qed.

    Lemma rerun_viewp (tr tr' : trace LV) : sound tr -> goodtr tr -> detached_rerun tr tr' -> vp tr' = vp tr.
    Proof.
      intros Hsd Hg H. unfold detached_rerun in H. induction H as [|[a r] [a' r'] tr tr' (E1 & E2 & E3 & E4 & E5) HF IH]; [reflexivity|].
      cbn [viewp map fst snd] in *. f_equal; [|apply IH; [intros c x Hx; apply (Hsd c x); right; exact Hx|intros c x Hx; apply (Hg c x); right; exact Hx]].
      destruct (Hsd a r) as (d & Ed & El); [left; reflexivity|]. rewrite Ed in E5. destruct E5 as [E5 _].
      rewrite (no_gradient _ _ _ _ _ PL) in *. unfold is_observed. rewrite E1, E2, E3, E5, El. reflexivity.
    Qed.
  End One.
End Particles.
