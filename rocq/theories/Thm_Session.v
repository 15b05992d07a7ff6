(** Proofs of C15, C16, C20: relational reasoning on pairs of runs. *)
From Verif Require Export Thm_Scope.

Section Rel.
  Context {L : lib}.
  Implicit Types S : st L -> st L -> Prop.

  Lemma sd_bind {A B A' B'} (R : A -> A' -> Prop) (Q : B -> B' -> Prop) (t : stree L A) t' f f' :
    same_draws R t t' -> (forall a b, R a b -> same_draws Q (f a) (f' b)) -> same_draws Q (tbind t f) (tbind t' f').
  Proof.
    intros H Hf. induction H as [a b H|d k k' H IH]; cbn; [apply Hf, H|].
    constructor. exact IH.
  Qed.
  Lemma sd_impl {A B} (R Q : A -> B -> Prop) (t : stree L A) t' :
    (forall a b, R a b -> Q a b) -> same_draws R t t' -> same_draws Q t t'.
  Proof. intros HI H. induction H; constructor; auto. Qed.
  Lemma sd_outcomes {A B} (R : A -> B -> Prop) (t : stree L A) t' :
    same_draws R t t' -> same_draws (fun a b => R a b /\ outcome t a /\ outcome t' b) t t'.
  Proof.
    induction 1 as [a b H|d k k' H IH]; [constructor; repeat split; [exact H|constructor|constructor]|].
    constructor. intros v. eapply sd_impl; [|apply IH]. cbn. intros a b (HR & H1 & H2).
    repeat split; [exact HR| |]; econstructor; eassumption.
  Qed.
  (** equal draws lead to related results *)
  Lemma sd_path {A B} (R : A -> B -> Prop) (t : stree L A) t' :
    same_draws R t t' -> forall ds a, path t ds a -> exists b, path t' ds b /\ R a b.
  Proof.
    induction 1 as [a b H|d k k' H IH]; intros ds x Hp; inversion Hp; subst.
    - exists b. split; [constructor|exact H].
    - match goal with H0 : path (k ?v) _ _ |- _ => destruct (IH v _ _ H0) as (b & Hb & HR) end.
      exists b. split; [constructor; exact Hb|exact HR].
  Qed.
  Lemma sd_path' {A B} (R : A -> B -> Prop) (t : stree L A) t' :
    same_draws R t t' -> forall ds b, path t' ds b -> exists a, path t ds a /\ R a b.
  Proof.
    induction 1 as [a b H|d k k' H IH]; intros ds x Hp; inversion Hp; subst.
    - exists a. split; [constructor|exact H].
    - match goal with H0 : path (k' ?v) _ _ |- _ => destruct (IH v _ _ H0) as (b & Hb & HR) end.
      exists b. split; [constructor; exact Hb|exact HR].
  Qed.

  (** results related: same exception, or related values; states related *)
  Definition rel {A B} (RA : A -> B -> Prop) (S : st L -> st L -> Prop) (x : res A * st L) (y : res B * st L) : Prop :=
    match fst x, fst y with Ok a, Ok b => RA a b | Err e, Err e' => e = e' | _, _ => False end /\ S (snd x) (snd y).

  Lemma sd_mbind {A B A' B'} (RA : A -> A' -> Prop) (RB : B -> B' -> Prop) (S S2 : st L -> st L -> Prop)
      (m : M L A) (m' : M L A') f f' s s' :
    same_draws (rel RA S) (m s) (m' s') ->
    (forall a b s1 s1', RA a b -> S s1 s1' -> same_draws (rel RB S2) (f a s1) (f' b s1')) ->
    (forall s1 s1', S s1 s1' -> S2 s1 s1') ->
    same_draws (rel RB S2) (mbind m f s) (mbind m' f' s').
  Proof.
    intros Hm Hf HS. unfold mbind. eapply sd_bind; [exact Hm|].
    intros [[a|e] s1] [[b|e'] s1'] [HR Hs]; cbn in *; try contradiction.
    - apply Hf; assumption.
    - constructor. split; [exact HR|apply HS, Hs].
  Qed.
  (** with what is known about each run *)
  Lemma sd_mbind_out {A B A' B'} (RA : A -> A' -> Prop) (RB : B -> B' -> Prop) (S S2 : st L -> st L -> Prop)
      (m : M L A) (m' : M L A') f f' s s' :
    same_draws (rel RA S) (m s) (m' s') ->
    (forall a b s1 s1', RA a b -> S s1 s1' -> outcome (m s) (Ok a, s1) -> outcome (m' s') (Ok b, s1') ->
       same_draws (rel RB S2) (f a s1) (f' b s1')) ->
    (forall e s1 s1', S s1 s1' -> outcome (m s) (Err e, s1) -> outcome (m' s') (Err e, s1') -> S2 s1 s1') ->
    same_draws (rel RB S2) (mbind m f s) (mbind m' f' s').
  Proof.
    intros Hm Hf HS. unfold mbind. eapply sd_bind; [apply sd_outcomes, Hm|].
    intros [[a|e] s1] [[b|e'] s1'] [[HR Hs] [O1 O2]]; cbn in *; try contradiction.
    - apply Hf; assumption.
    - subst e'. constructor. split; [reflexivity|]. eapply HS; eassumption.
  Qed.
  Lemma sd_frame {A B} (RA : A -> B -> Prop) S (F F' : st L -> Prop) (m : M L A) (m' : M L B) s s' :
    same_draws (rel RA S) (m s) (m' s') ->
    (forall r s1, outcome (m s) (r, s1) -> F s1) -> (forall r s1, outcome (m' s') (r, s1) -> F' s1) ->
    same_draws (rel RA (fun x y => S x y /\ F x /\ F' y)) (m s) (m' s').
  Proof.
    intros H H1 H2. eapply sd_impl; [|apply sd_outcomes, H].
    intros [x s1] [y s1'] [[HR HS] [O1 O2]]. split; [exact HR|]. cbn in *. split; [exact HS|]. eauto.
  Qed.
  Lemma sd_lift {A B} (RA : A -> B -> Prop) S (x : res A) (y : res B) s s' :
    match x, y with Ok a, Ok b => RA a b | Err e, Err e' => e = e' | _, _ => False end ->
    S s s' -> same_draws (rel RA S) (lift x s) (lift y s').
  Proof. intros H HS. constructor. split; assumption. Qed.
  Lemma sd_lift_eq {A} (S : st L -> st L -> Prop) (x : res A) s s' :
    S s s' -> same_draws (rel eq S) (lift x s) (lift x s').
  Proof. intros HS. apply sd_lift; [destruct x; reflexivity|exact HS]. Qed.
  Lemma sd_massert (S : st L -> st L -> Prop) b s s' :
    S s s' -> same_draws (rel eq S) (massert b s) (massert b s').
  Proof. intros HS. destruct b; constructor; split; try reflexivity; exact HS. Qed.
  Lemma sd_ret {A B} (RA : A -> B -> Prop) S (a : A) (b : B) s s' :
    RA a b -> S s s' -> same_draws (rel RA S) (ret a s) (ret b s').
  Proof. intros H HS. constructor. split; assumption. Qed.
  Lemma sd_raise {A B} (RA : A -> B -> Prop) S e s s' :
    S s s' -> same_draws (rel RA S) (raise (A := A) e s) (raise (A := B) e s').
  Proof. intros HS. constructor. split; [reflexivity|assumption]. Qed.
  Lemma sd_get S (s s' : st L) : S s s' -> same_draws (rel (fun a b => S a b /\ a = s /\ b = s') S) (get s) (get s').
  Proof. intros H. constructor. split; cbn; tauto. Qed.

  Lemma mbind_get {A} (f : st L -> M L A) s : mbind get f s = f s s.
  Proof. reflexivity. Qed.
  Lemma mbind_modify {A} g (f : unit -> M L A) s : mbind (modify g) f s = f tt (g s).
  Proof. reflexivity. Qed.

  (** the copy made by WithSubstitution.__init__ *)
  Definition copied (t : option (trace L)) : res (option (trace L)) :=
    match t with None => Ok None | Some tr => rmap Some (copytraces no_excl NoOverlaps [tr]) end.
  Lemma copied_none t : copied None = Ok t -> t = None.
  Proof. intros [= <-]. reflexivity. Qed.

  (** a with-statement on possibly different objects *)
  Lemma sd_with {A B} (RA : A -> B -> Prop) (S S1 : st L -> st L -> Prop) i j (t : option (trace L)) (m : M L A) (m' : M L B) s s' :
    S s s' ->
    (forall t', copied t = Ok t' ->
      same_draws (rel RA S1) (m (set_cond i t' s)) (m' (set_cond j t' s'))) ->
    (forall s1 s1', S1 s1 s1' -> S (set_cond i None s1) (set_cond j None s1')) ->
    same_draws (rel RA S) (with_substitution i t m s) (with_substitution j t m' s').
  Proof.
    intros HS Hm Hx. unfold with_substitution.
    assert (E : match t with None => ret None
                 | Some tr => lift (rmap Some (copytraces no_excl NoOverlaps [tr])) end = lift (L := L) (copied t))
      by (destruct t; reflexivity).
    rewrite E.
    destruct (copied t) as [t'|e] eqn:Er; cbn.
    2:{ constructor. split; [reflexivity|exact HS]. }
    unfold mbind. cbn. unfold mfinally.
    eapply sd_bind; [apply Hm; reflexivity|].
    intros [x s1] [y s1'] [HR Hs]. cbn in *. constructor. split; [exact HR|]. apply Hx, Hs.
  Qed.
  Lemma sd_dispatch {A B} (RA : A -> B -> Prop) S (t t' : inf L) kws kws' (k : dict (pyval (T L)) -> M L A) (k' : dict (pyval (T L)) -> M L B) s s' :
    clash ["fn"] kws = clash ["fn"] kws' -> S s s' ->
    (clash ["fn"] kws' = false -> same_draws (rel RA S) (k (dispatch_kwargs (callee_of t) kws) s) (k' (dispatch_kwargs (callee_of t') kws') s')) ->
    same_draws (rel RA S) (mdispatch t kws k s) (mdispatch t' kws' k' s').
  Proof.
    intros E HS H. unfold mdispatch. rewrite E. destruct (clash ["fn"] kws') eqn:Ec; [apply sd_raise, HS|apply H; reflexivity].
  Qed.
  Lemma sd_tree_refl {A} (R : A -> A -> Prop) (t : stree L A) : (forall a, R a a) -> same_draws R t t.
  Proof. intros HR. induction t; constructor; auto. Qed.

  (** a user model only sees the conditioning trace and the store *)
  Lemma sd_exec (S : st L -> st L -> Prop) cond m :
    (forall s s', S s s' -> store s = store s') ->
    (forall d s s', S s s' -> S (set_store d s) (set_store d s')) ->
    forall tr s s', S s s' -> same_draws (rel eq S) (exec cond m tr s) (exec cond m tr s').
  Proof.
    intros Hst Hset.
    induction m as [o|e|name d value rep k IH|name r0 k IH|k IH|k IH|d rep shape k IH|key k IH|key v k IH];
      intros tr s s' HS; cbn [exec].
    - apply sd_ret; [reflexivity|exact HS].
    - apply sd_raise, HS.
    - assert (Hf : forall v p s s', S s s' -> same_draws (rel eq S)
        (mbind (lift (add_node name (mkRV (Proper d) v (logp L d v) p rep true) tr)) (fun tr' => exec cond (k v) tr') s)
        (mbind (lift (add_node name (mkRV (Proper d) v (logp L d v) p rep true) tr)) (fun tr' => exec cond (k v) tr') s')).
      { intros v p s0 s0' HS0. eapply sd_mbind; [apply sd_lift_eq, HS0| |intros ? ? H; exact H].
        intros a b s1 s1' <- Hs1. apply IH, Hs1. }
      destruct value as [[v pv]|]; [apply Hf, HS|].
      destruct (match cond with Some ct => dget name ct | None => None end); [apply Hf, HS|].
      constructor. intros v. apply Hf, HS.
    - apply IH, HS.
    - apply IH, HS.
    - apply IH, HS.
    - constructor. intros v. apply IH, HS.
    - rewrite (Hst _ _ HS). apply IH, HS.
    - rewrite (Hst _ _ HS). apply IH, Hset, HS.
  Qed.

  (** the call of a Program, in states that give it the same conditioning trace *)
  Lemma sd_forward (S : st L -> st L -> Prop) i j sg m c kws s s' :
    (forall s s', S s s' -> store s = store s') ->
    (forall d s s', S s s' -> S (set_store d s) (set_store d s')) ->
    (forall a b s s', S s s' -> S (log_call a s) (log_call b s')) ->
    S s s' -> get_cond i s = get_cond j s' ->
    same_draws (rel eq S) (forward i sg m c kws s) (forward j sg m c kws s').
  Proof.
    intros Hst Hset Hlog HS Hc. unfold forward.
    destruct (clash ["self"] kws || _); [apply sd_raise, HS|].
    rewrite !mbind_get, Hc, !mbind_modify.
    eapply sd_mbind; [apply sd_exec with (S := S); [exact Hst|exact Hset|apply Hlog, HS]| |intros ? ? H; exact H].
    intros [o tr] b s1 s1' <- Hs1.
    eapply sd_mbind; [apply sd_lift_eq, Hs1| |intros ? ? H; exact H].
    intros lw lw' s2 s2' <- Hs2. apply sd_ret; [reflexivity|exact Hs2].
  Qed.
End Rel.

(** ** C15: a call only depends on the conditioning traces, the store and the hook *)
Section Agree.
  Context {L : lib}.

  Definition agree (s s' : st L) : Prop :=
    (forall i, get_cond i s = get_cond i s') /\ store s = store s' /\ hook s = hook s'.
  Lemma agree_set_cond i (t : option (trace L)) s s' : agree s s' -> agree (set_cond i t s) (set_cond i t s').
  Proof.
    intros (Hc & Hs & Hh). split; [|split; [exact Hs|exact Hh]].
    intros j. destruct (Nat.eq_dec j i) as [->|Hne]; [rewrite !get_set_same; reflexivity|].
    rewrite !get_set_other by exact Hne. apply Hc.
  Qed.
  Lemma agree_set_store d s s' : agree s s' -> agree (set_store d s) (set_store d s').
  Proof. intros (Hc & Hs & Hh). split; [exact Hc|split; [reflexivity|exact Hh]]. Qed.

  Lemma sd_update (S : st L -> st L -> Prop) tr tr2 s s' :
    (forall s s', S s s' -> store s = store s' /\ hook s = hook s') ->
    (forall d s s', S s s' -> S (set_store d s) (set_store d s')) ->
    S s s' -> same_draws (rel eq S) (resample_update tr tr2 s) (resample_update tr tr2 s').
  Proof.
    intros H1 H2 HS. unfold resample_update. destruct (H1 _ _ HS) as [-> ->].
    destruct (hook s' (store s') tr tr2) as [d|e]; constructor; (split; [reflexivity|]); cbn; [apply H2, HS|exact HS].
  Qed.

  Lemma run_agree t : forall c kws (s s' : st L), agree s s' -> same_draws (rel eq agree) (run t c kws s) (run t c kws s').
  Proof.
    induction t as [oid sg m|oid q IHq ix l0 rs dbg|oid p IHp f IHf o|oid q2 IH2 q1 IH1 o|oid p IHp q IHq o tf nr];
      intros c kws s s' HS; cbn [run].
    - apply sd_forward; try exact HS.
      + intros x y H. apply H.
      + intros d x y H. apply agree_set_store, H.
      + intros a b x y H. exact H.
      + apply HS.
    - eapply sd_mbind; [apply sd_lift_eq, HS| |intros ? ? H; exact H]. intros b b' s1 s1' <- H1.
      eapply sd_mbind; [apply IHq, H1| |intros ? ? H; exact H]. intros qo qo' s2 s2' <- H2.
      eapply sd_mbind with (RA := eq) (S := agree); [| |intros ? ? H; exact H].
      { eapply sd_bind with (R := eq); [apply sd_tree_refl; reflexivity|]. intros x y <-. constructor. split; [destruct x; reflexivity|exact H2]. }
      intros [i0 lw] tl' s3 s3' <- H3. cbn [fst snd].
      eapply sd_mbind with (RA := eq) (S := agree); [| |intros ? ? H; exact H].
      { destruct (out_output qo); first [apply sd_raise, H3|apply sd_lift_eq, H3]. }
      intros c2 c2' s4 s4' <- H4.
      eapply sd_mbind; [apply sd_update with (S := agree); [intros ? ? H; split; apply H|exact agree_set_store|exact H4]| |intros ? ? H; exact H].
      intros u u' s5 s5' _ H5.
      eapply sd_mbind; [apply sd_lift_eq, H5| |intros ? ? H; exact H]. intros r r' s6 s6' <- H6.
      apply sd_ret; [reflexivity|exact H6].
    - eapply sd_mbind; [apply sd_lift_eq, HS| |intros ? ? H; exact H]. intros b b' s1 s1' <- H1.
      rewrite !mbind_get. rewrite (proj1 H1 oid).
      eapply sd_mbind with (RA := eq) (S := agree); [| |intros ? ? H; exact H].
      { eapply sd_with; [exact H1| |intros ? ? H; apply agree_set_cond, H]. intros t1 _.
        eapply sd_with; [apply agree_set_cond, H1| |intros ? ? H; apply agree_set_cond, H]. intros t2 _.
        eapply sd_mbind; [apply sd_dispatch; [reflexivity|apply agree_set_cond, agree_set_cond, H1|intros _; apply IHp, agree_set_cond, agree_set_cond, H1]| |intros ? ? H; exact H].
        intros po po' s2 s2' <- H2.
        eapply sd_mbind; [apply sd_dispatch; [reflexivity|exact H2|intros _; apply IHf, H2]| |intros ? ? H; exact H].
        intros fo fo' s3 s3' <- H3. apply sd_ret; [reflexivity|exact H3]. }
      intros [po fo] pf' s2 s2' <- H2.
      rewrite !mbind_get. rewrite (proj1 H2 oid).
      eapply sd_mbind with (RA := eq) (S := agree); [| |intros ? ? H; exact H].
      { destruct (get_cond oid s2'); [apply sd_massert, H2|].
        eapply sd_mbind; [apply sd_lift_eq, H2| |intros ? ? H; exact H]. intros z z' s3 s3' <- H3.
        eapply sd_mbind; [apply sd_massert, H3| |intros ? ? H; exact H]. intros u u' s4 s4' _ H4.
        apply sd_massert, H4. }
      intros u u' s3 s3' _ H3.
      eapply sd_mbind; [apply sd_massert, H3| |intros ? ? H; exact H]. intros u2 u2' s4 s4' _ H4.
      eapply sd_mbind; [apply sd_lift_eq, H4| |intros ? ? H; exact H]. intros lu lu' s5 s5' <- H5.
      eapply sd_mbind; [apply sd_lift_eq, H5| |intros ? ? H; exact H]. intros tr tr' s6 s6' <- H6.
      eapply sd_mbind; [apply sd_lift_eq, H6| |intros ? ? H; exact H]. intros r r' s7 s7' <- H7.
      apply sd_ret; [reflexivity|exact H7].
    - eapply sd_mbind; [apply sd_lift_eq, HS| |intros ? ? H; exact H]. intros b b' s1 s1' <- H1.
      eapply sd_mbind; [apply sd_dispatch; [reflexivity|exact H1|intros _; apply IH1, H1]| |intros ? ? H; exact H].
      intros o1 o1' s2 s2' <- H2.
      eapply sd_mbind; [apply sd_dispatch; [reflexivity|exact H2|intros _; apply IH2, H2]| |intros ? ? H; exact H].
      intros o2 o2' s3 s3' <- H3.
      eapply sd_mbind; [apply sd_lift_eq, H3| |intros ? ? H; exact H]. intros tr tr' s4 s4' <- H4.
      eapply sd_mbind; [apply sd_massert, H4| |intros ? ? H; exact H]. intros u u' s5 s5' _ H5.
      eapply sd_mbind; [apply sd_lift_eq, H5| |intros ? ? H; exact H]. intros r r' s6 s6' <- H6.
      apply sd_ret; [reflexivity|exact H6].
    - eapply sd_mbind; [apply sd_massert, HS| |intros ? ? H; exact H]. intros u u' s0 s0' _ H0.
      eapply sd_mbind; [apply sd_lift_eq, H0| |intros ? ? H; exact H]. intros b b' s1 s1' <- H1.
      eapply sd_mbind; [apply sd_dispatch; [reflexivity|exact H1|intros _; apply IHq, H1]| |intros ? ? H; exact H].
      intros qo qo' s2 s2' <- H2.
      eapply sd_mbind with (RA := eq) (S := agree); [| |intros ? ? H; exact H].
      { eapply sd_with; [exact H2| |intros ? ? H; apply agree_set_cond, H]. intros t1 _.
        apply sd_dispatch; [reflexivity|apply agree_set_cond, H2|intros _; apply IHp, agree_set_cond, H2]. }
      intros po po' s3 s3' <- H3.
      eapply sd_mbind; [apply sd_lift_eq, H3| |intros ? ? H; exact H]. intros qt qt' s4 s4' <- H4.
      eapply sd_mbind; [apply sd_lift_eq, H4| |intros ? ? H; exact H]. intros lu lu' s5 s5' <- H5.
      eapply sd_mbind; [apply sd_lift_eq, H5| |intros ? ? H; exact H]. intros [mo mt] mm' s6 s6' <- H6.
      eapply sd_mbind; [apply sd_lift_eq, H6| |intros ? ? H; exact H]. intros tr tr' s7 s7' <- H7.
      eapply sd_mbind with (RA := eq) (S := agree); [| |intros ? ? H; exact H].
      { destruct (is_tensor L _); [apply sd_ret; [reflexivity|exact H7]|apply sd_raise, H7]. }
      intros lw lw' s8 s8' <- H8.
      eapply sd_mbind; [apply sd_lift_eq, H8| |intros ? ? H; exact H]. intros pt pt' s9 s9' <- H9.
      eapply sd_mbind; [apply sd_lift_eq, H9| |intros ? ? H; exact H]. intros tt' tt'' sa sa' <- Ha.
      eapply sd_mbind; [apply sd_lift_eq, Ha| |intros ? ? H; exact H]. intros fw fw' sb sb' <- Hb.
      eapply sd_mbind; [apply sd_lift_eq, Hb| |intros ? ? H; exact H]. intros r r' sc sc' <- Hc.
      apply sd_ret; [reflexivity|exact Hc].
  Qed.
End Agree.

(** ** C16: programs equal up to object identity *)
Section Sharing.
  Context {L : lib}.

  Lemma inner_resample oid (q : inf L) ix l0 rs d : inner (IResample oid q ix l0 rs d) = oid_of q :: inner q.
  Proof. unfold inner. cbn [parts tl]. destruct q; reflexivity. Qed.
  Lemma parts_hd (t : inf L) : map oid_of (parts t) = oid_of t :: inner t.
  Proof. destruct t; reflexivity. Qed.
  Lemma inner_extend oid (p f : inf L) o :
    inner (IExtend oid p f o) = (oid_of p :: inner p) ++ (oid_of f :: inner f).
  Proof. unfold inner at 1. cbn [parts tl]. rewrite map_app, !parts_hd. reflexivity. Qed.
  Lemma inner_compose oid (p f : inf L) o :
    inner (ICompose oid p f o) = (oid_of p :: inner p) ++ (oid_of f :: inner f).
  Proof. unfold inner at 1. cbn [parts tl]. rewrite map_app, !parts_hd. reflexivity. Qed.
  Lemma inner_propose oid (p f : inf L) o tf nr :
    inner (IPropose oid p f o tf nr) = (oid_of p :: inner p) ++ (oid_of f :: inner f).
  Proof. unfold inner at 1. cbn [parts tl]. rewrite map_app, !parts_hd. reflexivity. Qed.
  Lemma substituted_inner (t : inf L) i : In i (substituted t) -> In i (inner t).
  Proof.
    induction t as [oid sg m|oid q IHq ix l0 rs dbg|oid p IHp f IHf o|oid q2 IH2 q1 IH1 o|oid p IHp q IHq o tf nr];
      cbn [substituted].
    - intros [].
    - rewrite inner_resample. intros H. right. apply IHq, H.
    - rewrite inner_extend, !in_app_iff. cbn [In]. rewrite in_app_iff. tauto.
    - rewrite inner_compose, !in_app_iff. cbn [In]. tauto.
    - rewrite inner_propose, !in_app_iff. cbn [In]. rewrite in_app_iff. tauto.
  Qed.

  Definition same_store (s s' : st L) : Prop := store s = store s' /\ hook s = hook s'.
  (** before a run: the own conditioning trace is [cnd], those inside are None *)
  Definition ready (cd : bool) (t : inf L) (cnd : option (trace L)) (s : st L) : Prop :=
    get_cond (oid_of t) s = cnd /\ (cd = false -> cnd = None) /\ forall i, In i (inner t) -> get_cond i s = None.
  (** what a run does to the conditioning traces *)
  Definition framed (t : inf L) (s s1 : st L) : Prop :=
    (forall i, ~ In i (inner t) -> get_cond i s1 = get_cond i s) /\ (forall i, get_cond i s = None -> get_cond i s1 = None).
  Lemma run_framed t c kws s r s1 : outcome (run t c kws s) (r, s1) -> framed t s s1.
  Proof.
    intros H. apply run_scoped in H. destruct H as (H1 & H2 & _). split; [|exact H2].
    intros i Hi. apply H1. intros Hs. apply Hi, substituted_inner, Hs.
  Qed.

  Lemma shape_callee (t t' : inf L) : same_shape t t' -> callee_of t = callee_of t'.
  Proof. destruct t, t'; cbn; try tauto; intros [-> ->]; reflexivity. Qed.
  Lemma shape_is_compose (t t' : inf L) : same_shape t t' -> is_compose t = is_compose t'.
  Proof. destruct t, t'; cbn; tauto. Qed.
  Lemma shape_marginalize (t t' : inf L) o : same_shape t t' -> marginalize t o = marginalize t' o.
  Proof. destruct t, t'; cbn; tauto. Qed.
  Lemma shape_forward_trace (t t' : inf L) o : same_shape t t' -> forward_trace t o = forward_trace t' o.
  Proof.
    intros H. unfold forward_trace. replace (debug_attr t') with (debug_attr t); [reflexivity|].
    destruct t, t'; cbn in *; try tauto; repeat match goal with H : _ /\ _ |- _ => destruct H end; subst; reflexivity.
  Qed.

  Lemma set_cond_none i j t (s : st L) : (i <> j \/ t = None) -> get_cond i s = None -> get_cond i (set_cond j t s) = None.
  Proof.
    intros H Hs. destruct (Nat.eq_dec i j) as [->|Hne].
    - rewrite get_set_same. destruct H as [H|H]; [congruence|exact H].
    - rewrite get_set_other by exact Hne. exact Hs.
  Qed.

  Lemma run_shape : forall t t' cd cnd c kws (s s' : st L),
    same_shape t t' -> well_scoped cd t -> well_scoped cd t' ->
    ready cd t cnd s -> ready cd t' cnd s' -> same_store s s' ->
    same_draws (rel eq (fun x y => same_store x y /\ framed t s x /\ framed t' s' y)) (run t c kws s) (run t' c kws s').
  Proof.
    assert (Hfr : forall t t' c kws (s s' : st L),
      same_draws (rel eq same_store) (run t c kws s) (run t' c kws s') ->
      same_draws (rel eq (fun x y => same_store x y /\ framed t s x /\ framed t' s' y)) (run t c kws s) (run t' c kws s')).
    { intros t t' c kws s s' H. apply sd_frame; [exact H| |]; intros r s1; apply run_framed. }
    assert (Hss : forall d (x y : st L), same_store x y -> same_store (set_store d x) (set_store d y)).
    { intros d x y [_ H]. split; [reflexivity|exact H]. }
    intros t. induction t as [oid sg m|oid q IHq ix l0 rs dbg|oid p IHp f IHf o|oid q2 IH2 q1 IH1 o|oid p IHp q IHq o tf nr];
      intros t' cd cnd c kws s s' Hsh Hw Hw' Hr Hr' HS; apply Hfr; destruct t' as [oid' sg' m'|oid' q' ix' l0' rs' dbg'|oid' p' f' o'|oid' q2' q1' o'|oid' p' q' o' tf' nr'];
      cbn [same_shape] in Hsh; try contradiction; cbn [run].
    - destruct Hsh as [<- <-]. apply sd_forward; try exact HS.
      + intros x y H. apply H.
      + exact Hss.
      + intros a b x y H. exact H.
      + destruct Hr as [Hr _], Hr' as [Hr' _]. cbn [oid_of] in *. congruence.
    - destruct Hsh as (Hsh & <- & <- & <- & <-). destruct Hw as [Hn Hw], Hw' as [Hn' Hw'].
      destruct Hr as (Hr & _ & Hi), Hr' as (Hr' & _ & Hi'). rewrite inner_resample in *.
      eapply sd_mbind with (S := fun x y => x = s /\ y = s'); [apply sd_lift_eq; tauto| |intros ? ? [-> ->]; exact HS].
      intros b b' s1 s1' <- [-> ->].
      eapply sd_mbind; [apply IHq with (cd := false) (cnd := None); try assumption| |intros ? ? H; apply H].
      { split; [apply Hi; left; reflexivity|]. split; [reflexivity|]. intros i H; apply Hi; right; exact H. }
      { split; [apply Hi'; left; reflexivity|]. split; [reflexivity|]. intros i H; apply Hi'; right; exact H. }
      intros qo qo' s2 s2' <- [H2 _].
      eapply sd_mbind with (RA := eq) (S := same_store); [| |intros ? ? H; exact H].
      { eapply sd_bind with (R := eq); [apply sd_tree_refl; reflexivity|]. intros x y <-. constructor. split; [destruct x; reflexivity|exact H2]. }
      intros [i0 lw] tl' s3 s3' <- H3. cbn [fst snd].
      eapply sd_mbind with (RA := eq) (S := same_store); [| |intros ? ? H; exact H].
      { destruct (out_output qo); first [apply sd_raise, H3|apply sd_lift_eq, H3]. }
      intros c2 c2' s4 s4' <- H4.
      eapply sd_mbind; [apply sd_update with (S := same_store); [intros ? ? H; exact H|exact Hss|exact H4]| |intros ? ? H; exact H].
      intros u u' s5 s5' _ H5.
      eapply sd_mbind; [apply sd_lift_eq, H5| |intros ? ? H; exact H]. intros r r' s6 s6' <- H6.
      apply sd_ret; [reflexivity|exact H6].
    - destruct Hsh as (Hp & Hf & <-). destruct Hw as (Hn & Hwp & Hwf & Hx), Hw' as (Hn' & Hwp' & Hwf' & Hx').
      destruct Hr as (Hr & Hcd & Hi), Hr' as (Hr' & _ & Hi'). cbn [oid_of] in *. rewrite inner_extend in *.
      set (E1 := fun x y : st L => same_store x y /\ get_cond oid x = cnd /\ get_cond oid' y = cnd).
      assert (HE : forall i j t x y, oid <> i -> oid' <> j -> E1 x y -> E1 (set_cond i t x) (set_cond j t y)).
      { intros i j t x y H1 H2 (Ha & Hb & Hc). split; [exact Ha|]. rewrite !get_set_other by assumption. tauto. }
      assert (Np : oid <> oid_of p) by (intros E; apply Hn; rewrite E; left; reflexivity).
      assert (Np' : oid' <> oid_of p') by (intros E; apply Hn'; rewrite E; left; reflexivity).
      assert (Nf : oid <> oid_of f) by (intros E; apply Hn; rewrite E; apply in_or_app; right; left; reflexivity).
      assert (Nf' : oid' <> oid_of f') by (intros E; apply Hn'; rewrite E; apply in_or_app; right; left; reflexivity).
      eapply sd_mbind with (S := fun x y => x = s /\ y = s'); [apply sd_lift_eq; tauto| |intros ? ? [-> ->]; exact HS].
      intros b b' s1 s1' <- [-> ->]. rewrite !mbind_get. rewrite Hr, Hr'.
      eapply sd_mbind with (RA := eq) (S := E1); [| |intros ? ? H; apply H].
      { eapply sd_with with (S1 := E1); [split; [exact HS|tauto]| |intros ? ? H; apply HE; assumption]. intros t1 Ht1.
        eapply sd_with with (S1 := E1); [apply HE; [assumption|assumption|split; [exact HS|tauto]]| |intros ? ? H; apply HE; assumption].
        intros t2 Ht2. assert (E : t2 = t1) by congruence. subst t2. clear Ht2.
        assert (Ht : cd = false -> t1 = None).
        { intros H. rewrite (Hcd H) in Ht1. apply copied_none, Ht1. }
        set (sp := set_cond (oid_of f) t1 (set_cond (oid_of p) t1 s)).
        set (sp' := set_cond (oid_of f') t1 (set_cond (oid_of p') t1 s')).
        (* the state in which p starts *)
        assert (Own : forall i j, get_cond i (set_cond j t1 (set_cond i t1 s)) = t1).
        { intros i j. destruct (Nat.eq_dec i j) as [->|Hne]; [apply get_set_same|].
          rewrite get_set_other by exact Hne. apply get_set_same. }
        assert (Own' : forall i j, get_cond i (set_cond j t1 (set_cond i t1 s')) = t1).
        { intros i j. destruct (Nat.eq_dec i j) as [->|Hne]; [apply get_set_same|].
          rewrite get_set_other by exact Hne. apply get_set_same. }
        assert (Wp : ~ In (oid_of p) (inner p)) by (destruct p; apply Hwp).
        assert (Wf : ~ In (oid_of f) (inner f)) by (destruct f; apply Hwf).
        assert (Wp' : ~ In (oid_of p') (inner p')) by (destruct p'; apply Hwp').
        assert (Wf' : ~ In (oid_of f') (inner f')) by (destruct f'; apply Hwf').
        assert (Inn : forall i, In i (inner p) \/ In i (inner f) -> get_cond i sp = None).
        { intros i Hin. apply set_cond_none; [|apply set_cond_none].
          - destruct cd; [left|right; apply Ht; reflexivity].
            intros ->. destruct Hin as [Hin|Hin]; [apply (proj1 (Hx eq_refl)), Hin|apply Wf, Hin].
          - destruct cd; [left|right; apply Ht; reflexivity].
            intros ->. destruct Hin as [Hin|Hin]; [apply Wp, Hin|apply (proj2 (Hx eq_refl)), Hin].
          - apply Hi. cbn. rewrite in_app_iff. cbn. tauto. }
        assert (Inn' : forall i, In i (inner p') \/ In i (inner f') -> get_cond i sp' = None).
        { intros i Hin. apply set_cond_none; [|apply set_cond_none].
          - destruct cd; [left|right; apply Ht; reflexivity].
            intros ->. destruct Hin as [Hin|Hin]; [apply (proj1 (Hx' eq_refl)), Hin|apply Wf', Hin].
          - destruct cd; [left|right; apply Ht; reflexivity].
            intros ->. destruct Hin as [Hin|Hin]; [apply Wp', Hin|apply (proj2 (Hx' eq_refl)), Hin].
          - apply Hi'. cbn. rewrite in_app_iff. cbn. tauto. }
        assert (Fo : get_cond (oid_of f) sp = t1) by apply get_set_same.
        assert (Fo' : get_cond (oid_of f') sp' = t1) by apply get_set_same.
        assert (HE0 : E1 sp sp') by (apply HE; [assumption|assumption|]; apply HE; [assumption|assumption|]; split; [exact HS|tauto]).
        set (E2 := fun x y => (same_store x y /\ framed p sp x /\ framed p' sp' y)).
        assert (HE2 : forall x y, E2 x y -> E1 x y).
        { intros x y (Ha & [Hb _] & [Hc _]). split; [exact Ha|]. destruct HE0 as (_ & G1 & G2).
          rewrite Hb, Hc; [tauto| |].
          - intros H. apply Hn'. right. apply in_or_app. left; exact H.
          - intros H. apply Hn. right. apply in_or_app. left; exact H. }
        eapply sd_mbind with (S := E2); [| |exact HE2].
        { apply sd_dispatch; [reflexivity| |].
          - split; [exact HS|]. split; (split; [reflexivity|tauto]).
          - intros _. rewrite (shape_callee _ _ Hp). apply IHp with (cd := cd) (cnd := t1); try assumption.
            + split; [apply Own|]. split; [exact Ht|]. intros i H. apply Inn. left; exact H.
            + split; [apply Own'|]. split; [exact Ht|]. intros i H. apply Inn'. left; exact H. }
        intros po po' s2 s2' <- (H2 & [F1 F2] & [F1' F2']).
        assert (Ho : get_cond (oid_of f) s2 = t1).
        { destruct cd; [|rewrite Ht in * by reflexivity; apply F2; exact Fo].
          rewrite F1; [exact Fo|apply (proj1 (Hx eq_refl))]. }
        assert (Ho' : get_cond (oid_of f') s2' = t1).
        { destruct cd; [|rewrite Ht in * by reflexivity; apply F2'; exact Fo'].
          rewrite F1'; [exact Fo'|apply (proj1 (Hx' eq_refl))]. }
        eapply sd_mbind with (S := fun x y => same_store x y /\ framed f s2 x /\ framed f' s2' y).
        { apply sd_dispatch; [reflexivity| |].
          - split; [exact H2|]. split; (split; [reflexivity|tauto]).
          - intros _. rewrite (shape_callee _ _ Hf). apply IHf with (cd := cd) (cnd := t1); try assumption.
            + split; [exact Ho|]. split; [exact Ht|]. intros i H. apply F2, Inn. right; exact H.
            + split; [exact Ho'|]. split; [exact Ht|]. intros i H. apply F2', Inn'. right; exact H. }
        { intros fo fo' s3 s3' <- (H3 & [G1 G2] & [G1' G2']). apply sd_ret; [reflexivity|].
          assert (HE3 : E1 s2 s2') by (apply HE2; split; [exact H2|split; split; assumption]).
          destruct HE3 as (_ & K1 & K2). split; [exact H3|]. rewrite G1, G1'; [tauto| |].
          - intros H. apply Hn'. apply in_or_app. right; right; exact H.
          - intros H. apply Hn. apply in_or_app. right; right; exact H. }
        { intros s3 s3' (H3 & [G1 G2] & [G1' G2']).
          assert (HE3 : E1 s2 s2') by (apply HE2; split; [exact H2|split; split; assumption]).
          destruct HE3 as (_ & K1 & K2). split; [exact H3|]. rewrite G1, G1'; [tauto| |].
          - intros H. apply Hn'. apply in_or_app. right; right; exact H.
          - intros H. apply Hn. apply in_or_app. right; right; exact H. } }
      intros [po fo] pf' s2 s2' <- (H2 & K1 & K2).
      rewrite !mbind_get. rewrite K1, K2.
      eapply sd_mbind with (RA := eq) (S := same_store); [| |intros ? ? H; exact H].
      { destruct cnd; [apply sd_massert, H2|].
        eapply sd_mbind; [apply sd_lift_eq, H2| |intros ? ? H; exact H]. intros z z' s3 s3' <- H3.
        eapply sd_mbind; [apply sd_massert, H3| |intros ? ? H; exact H]. intros u u' s4 s4' _ H4.
        apply sd_massert, H4. }
      intros u u' s3 s3' _ H3.
      eapply sd_mbind; [apply sd_massert, H3| |intros ? ? H; exact H]. intros u2 u2' s4 s4' _ H4.
      eapply sd_mbind; [apply sd_lift_eq, H4| |intros ? ? H; exact H]. intros lu lu' s5 s5' <- H5.
      eapply sd_mbind; [apply sd_lift_eq, H5| |intros ? ? H; exact H]. intros tr tr' s6 s6' <- H6.
      eapply sd_mbind; [apply sd_lift_eq, H6| |intros ? ? H; exact H]. intros r r' s7 s7' <- H7.
      apply sd_ret; [reflexivity|exact H7].
    - destruct Hsh as (Hs2 & Hs1 & <-). destruct Hw as (Hn & Hw2 & Hw1), Hw' as (Hn' & Hw2' & Hw1').
      destruct Hr as (Hr & _ & Hi), Hr' as (Hr' & _ & Hi'). rewrite inner_compose in *.
      eapply sd_mbind with (S := fun x y => x = s /\ y = s'); [apply sd_lift_eq; tauto| |intros ? ? [-> ->]; exact HS].
      intros b b' s1 s1' <- [-> ->].
      assert (R1 : ready false q1 None s).
      { split; [apply Hi, in_or_app; right; left; reflexivity|]. split; [reflexivity|]. intros i H; apply Hi, in_or_app; right; right; exact H. }
      assert (R1' : ready false q1' None s').
      { split; [apply Hi', in_or_app; right; left; reflexivity|]. split; [reflexivity|]. intros i H; apply Hi', in_or_app; right; right; exact H. }
      eapply sd_mbind with (S := fun x y => same_store x y /\ framed q1 s x /\ framed q1' s' y).
      { apply sd_dispatch; [reflexivity| |].
        - split; [exact HS|]. split; (split; [reflexivity|tauto]).
        - intros _. rewrite (shape_callee _ _ Hs1). apply IH1 with (cd := false) (cnd := None); assumption. }
      2:{ intros ? ? H; apply H. }
      intros o1 o1' s2 s2' <- (H2 & [_ F] & [_ F']).
      eapply sd_mbind with (RA := eq) (S := same_store).
      { apply sd_dispatch; [reflexivity|exact H2|].
        intros _. rewrite (shape_callee _ _ Hs2).
        eapply sd_impl; [|apply IH2 with (cd := false) (cnd := None); try assumption].
        + intros x y [Ha [Hb _]]. split; assumption.
        + split; [apply F, Hi, in_or_app; left; left; reflexivity|]. split; [reflexivity|]. intros i H; apply F, Hi, in_or_app; left; right; exact H.
        + split; [apply F', Hi', in_or_app; left; left; reflexivity|]. split; [reflexivity|]. intros i H; apply F', Hi', in_or_app; left; right; exact H. }
      2:{ intros ? ? H; exact H. }
      intros o2 o2' s3 s3' <- H3.
      eapply sd_mbind; [apply sd_lift_eq, H3| |intros ? ? H; exact H]. intros tr tr' s4 s4' <- H4.
      eapply sd_mbind; [apply sd_massert, H4| |intros ? ? H; exact H]. intros u u' s5 s5' _ H5.
      eapply sd_mbind; [apply sd_lift_eq, H5| |intros ? ? H; exact H]. intros r r' s6 s6' <- H6.
      apply sd_ret; [reflexivity|exact H6].
    - destruct Hsh as (Hp & Hq & <- & <- & <-). destruct Hw as (Hn & Hwp & Hwq), Hw' as (Hn' & Hwp' & Hwq').
      destruct Hr as (Hr & _ & Hi), Hr' as (Hr' & _ & Hi'). rewrite inner_propose in *.
      rewrite (shape_is_compose _ _ Hp).
      eapply sd_mbind with (S := fun x y => x = s /\ y = s'); [apply sd_massert; tauto| |intros ? ? [-> ->]; exact HS].
      intros u u' s0 s0' _ [-> ->].
      eapply sd_mbind with (S := fun x y => x = s /\ y = s'); [apply sd_lift_eq; tauto| |intros ? ? [-> ->]; exact HS].
      intros b b' s1 s1' <- [-> ->].
      eapply sd_mbind with (S := fun x y => same_store x y /\ framed q s x /\ framed q' s' y).
      { apply sd_dispatch; [reflexivity| |].
        - split; [exact HS|]. split; (split; [reflexivity|tauto]).
        - intros _. rewrite (shape_callee _ _ Hq). apply IHq with (cd := false) (cnd := None); try assumption.
          + split; [apply Hi, in_or_app; right; left; reflexivity|]. split; [reflexivity|]. intros i H; apply Hi, in_or_app; right; right; exact H.
          + split; [apply Hi', in_or_app; right; left; reflexivity|]. split; [reflexivity|]. intros i H; apply Hi', in_or_app; right; right; exact H. }
      2:{ intros ? ? H; apply H. }
      intros qo qo' s2 s2' <- (H2 & [_ F] & [_ F']).
      assert (Wp : ~ In (oid_of p) (inner p)) by (destruct p; apply Hwp).
      assert (Wp' : ~ In (oid_of p') (inner p')) by (destruct p'; apply Hwp').
      eapply sd_mbind with (RA := eq) (S := same_store); [| |intros ? ? H; exact H].
      { eapply sd_with with (S1 := same_store); [exact H2| |intros ? ? H; exact H]. intros t1 _.
        apply sd_dispatch; [reflexivity|exact H2|]. intros _. rewrite (shape_callee _ _ Hp).
        eapply sd_impl; [|apply IHp with (cd := true) (cnd := t1); try assumption].
        - intros x y [Ha [Hb _]]. split; assumption.
        - split; [apply get_set_same|]. split; [discriminate|]. intros i H. apply set_cond_none; [left; intros ->; contradiction|].
          apply F, Hi. right. apply in_or_app. left; exact H.
        - split; [apply get_set_same|]. split; [discriminate|]. intros i H. apply set_cond_none; [left; intros ->; contradiction|].
          apply F', Hi'. right. apply in_or_app. left; exact H. }
      intros po po' s3 s3' <- H3.
      eapply sd_mbind; [apply sd_lift_eq, H3| |intros ? ? H; exact H]. intros qt qt' s4 s4' <- H4.
      eapply sd_mbind; [apply sd_lift_eq, H4| |intros ? ? H; exact H]. intros lu lu' s5 s5' <- H5.
      rewrite (shape_marginalize _ _ po Hp).
      eapply sd_mbind; [apply sd_lift_eq, H5| |intros ? ? H; exact H]. intros [mo mt] mm' s6 s6' <- H6.
      eapply sd_mbind; [apply sd_lift_eq, H6| |intros ? ? H; exact H]. intros tr tr' s7 s7' <- H7.
      eapply sd_mbind with (RA := eq) (S := same_store); [| |intros ? ? H; exact H].
      { destruct (is_tensor L _); [apply sd_ret; [reflexivity|exact H7]|apply sd_raise, H7]. }
      intros lw lw' s8 s8' <- H8.
      eapply sd_mbind; [apply sd_lift_eq, H8| |intros ? ? H; exact H]. intros pt pt' s9 s9' <- H9.
      eapply sd_mbind; [apply sd_lift_eq, H9| |intros ? ? H; exact H]. intros tt' tt'' sa sa' <- Ha.
      rewrite (shape_forward_trace _ _ qo Hq).
      eapply sd_mbind; [apply sd_lift_eq, Ha| |intros ? ? H; exact H]. intros fw fw' sb sb' <- Hb.
      eapply sd_mbind; [apply sd_lift_eq, Hb| |intros ? ? H; exact H]. intros r r' sc sc' <- Hc.
      apply sd_ret; [reflexivity|exact Hc].
  Qed.

  Lemma run_sharing t t' c kws (s s' : st L) :
    same_shape t t' -> well_scoped false t -> well_scoped false t' -> clean s -> clean s' ->
    store s = store s' -> hook s = hook s' ->
    same_draws same_end (run t c kws s) (run t' c kws s').
  Proof.
    intros Hsh Hw Hw' Hc Hc' Hs Hh.
    eapply sd_impl; [|apply run_shape with (cd := false) (cnd := None); try eassumption].
    - intros [x s1] [y s1'] [HR [[HS _] _]]. split; [|exact HS]. cbn in *.
      destruct x, y; try contradiction; congruence.
    - split; [apply Hc|]. split; [reflexivity|]. intros; apply Hc.
    - split; [apply Hc'|]. split; [reflexivity|]. intros; apply Hc'.
    - split; assumption.
  Qed.

  Lemma distinct_well_scoped (t : inf L) : NoDup (map oid_of (parts t)) -> forall cd, well_scoped cd t.
  Proof.
    assert (App : forall (a b : list nat), NoDup (a ++ b) -> NoDup a /\ NoDup b /\ forall x, In x a -> ~ In x b).
    { induction a as [|x a IH]; cbn; intros b H; [repeat split; [constructor|exact H|intros ? []]|].
      inversion H as [|? ? Hx Hab]; subst. destruct (IH b Hab) as (Ha & Hb & Hd).
      split; [constructor; [intros Hi; apply Hx, in_or_app; left; exact Hi|exact Ha]|]. split; [exact Hb|].
      intros y [->|Hy]; [intros Hyb; apply Hx, in_or_app; right; exact Hyb|apply Hd, Hy]. }
    induction t as [oid sg m|oid q IHq ix l0 rs dbg|oid p IHp f IHf o|oid q2 IH2 q1 IH1 o|oid p IHp q IHq o tf nr];
      rewrite parts_hd; intros H cd; inversion H as [|? ? H1 H2]; subst;
      (split; [exact H1|]); try exact I.
    - rewrite inner_resample in H2. apply IHq. rewrite parts_hd. exact H2.
    - rewrite inner_extend in H2. apply App in H2. destruct H2 as (Ha & Hb & Hd). rewrite <- !parts_hd in *.
      split; [apply IHp, Ha|]. split; [apply IHf, Hb|]. intros _. split.
      + intros Hi. apply (Hd (oid_of f)); rewrite parts_hd; [right; exact Hi|left; reflexivity].
      + intros Hi. apply (Hd (oid_of p)); rewrite parts_hd; [left; reflexivity|right; exact Hi].
    - rewrite inner_compose in H2. apply App in H2. destruct H2 as (Ha & Hb & Hd). rewrite <- !parts_hd in *.
      split; [apply IH2, Ha|apply IH1, Hb].
    - rewrite inner_propose in H2. apply App in H2. destruct H2 as (Ha & Hb & Hd). rewrite <- !parts_hd in *.
      split; [apply IHp, Ha|apply IHq, Hb].
  Qed.
End Sharing.
