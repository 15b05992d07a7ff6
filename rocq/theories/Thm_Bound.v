(** Proof of the evidence bound (C86). *)
From Coq Require Import Lra Lia.
From Verif Require Import SpecBound Thm_Proper Thm_Particles.

Lemma ln_tangent x c : (0 < x)%R -> (0 < c)%R -> (ln x <= / c * x + (ln c - 1))%R.
Proof.
  intros Hx Hc. assert (Hp : (0 < / c * x)%R) by (apply Rmult_lt_0_compat; [apply Rinv_0_lt_compat, Hc|exact Hx]).
  assert (E : ln x = (ln (/ c * x) + ln c)%R).
  { rewrite <- ln_mult by assumption. f_equal. field. lra. }
  rewrite E. pose proof (exp_ineq1_le (ln (/ c * x))) as H. rewrite exp_ln in H by exact Hp. lra.
Qed.

Lemma ln_mono x y : (0 < x)%R -> (x <= y)%R -> (ln x <= ln y)%R.
Proof. intros Hx [H | <-]; [left; apply ln_increasing; assumption|lra]. Qed.

(** *** trees without torch.rand *)
Section NoRand.
  Context {L : lib}.
  Fixpoint nr {A} (t : stree L A) : Prop :=
    match t with
    | Leaf _ => True
    | Draw (DrawDist _ _ _) k => forall v, nr (k v)
    | Draw DrawRand _ => False
    end.
  Lemma nr_tbind {A B} (t : stree L A) (k : A -> stree L B) : nr t -> (forall a, nr (k a)) -> nr (tbind t k).
  Proof. induction t as [a|[d rep sh|] k' IH]; cbn [nr tbind]; intros H Hk; [apply Hk| |destruct H]. intros v. apply IH; auto. Qed.
  Lemma nr_mbind {A B} (m : M L A) (f : A -> M L B) s : nr (m s) -> (forall a s', nr (f a s')) -> nr (mbind m f s).
  Proof. intros H Hf. unfold mbind. apply nr_tbind; [exact H|]. intros [[a|e] s']; [apply Hf|exact I]. Qed.
  Lemma nr_exec cond m : forall tr s, nr (exec (L := L) cond m tr s).
  Proof.
    induction m as [o|e|a d value rep k IH|a r0 k IH|k IH|k IH|d rep shape k IH|key k IH|key v k IH]; intros tr s; cbn [exec]; try exact I; auto.
    - assert (Hf : forall v p s0, nr (mbind (lift (add_node a (mkRV (Proper d) v (logp L d v) p rep true) tr)) (fun tr' => exec cond (k v) tr') s0)).
      { intros v p s0. apply nr_mbind; [exact I|]. intros tr' s'. apply IH. }
      destruct value as [[v pv]|]; [apply Hf|]. destruct (match cond with Some ct => dget a ct | None => None end); [apply Hf|]. intros v. apply Hf.
    - intros v. apply IH.
  Qed.
  Lemma nr_forward oid sg m c kws s : nr (forward (L := L) oid sg m c kws s).
  Proof.
    unfold forward. repeat first [exact I | apply nr_exec | apply nr_mbind; intros | match goal with |- nr ((if ?b then _ else _) _) => destruct b end
      | match goal with |- nr ((let '(_, _) := ?b in _) _) => destruct b end | match goal with |- nr ((match ?b with _ => _ end) _) => destruct b end].
  Qed.
  Lemma nr_with_substitution {A} oid cond (m : M L A) s : (forall s', nr (m s')) -> nr (with_substitution oid cond m s).
  Proof.
    intros H. unfold with_substitution. apply nr_mbind; [destruct cond; exact I|]. intros t' s1. apply nr_mbind; [exact I|]. intros _ s2.
    unfold mfinally. apply nr_tbind; [apply H|]. intros a. exact I.
  Qed.
  Lemma nr_mdispatch {A} t kws (k : dict (pyval (T L)) -> M L A) s : (forall kws' s', nr (k kws' s')) -> nr (mdispatch t kws k s).
  Proof. intros H. unfold mdispatch. destruct (clash ["fn"] kws); [exact I|apply H]. Qed.
  Lemma nr_run t : no_resample t -> forall c kws s, nr (run (L := L) t c kws s).
  Proof.
    induction t as [oid sg m|oid q IH ix l0 rs dbg|oid p IHp f IHf o|oid q2 IH2 q1 IH1 o|oid p IHp q IHq o tf n];
      cbn [no_resample]; intros H c kws s; cbn [run].
    - apply nr_forward.
    - destruct H.
    - destruct H as [Hp Hf]. apply nr_mbind; [exact I|]. intros b s1. apply nr_mbind; [exact I|]. intros s0 s2.
      apply nr_mbind.
      { apply nr_with_substitution. intros s3. apply nr_with_substitution. intros s4.
        apply nr_mbind; [apply nr_mdispatch; intros; apply IHp, Hp|]. intros po s5.
        apply nr_mbind; [apply nr_mdispatch; intros; apply IHf, Hf|]. intros fo s6. exact I. }
      intros [po fo] s3. apply nr_mbind; [exact I|]. intros s4 s5.
      apply nr_mbind.
      { destruct (get_cond oid s4); [unfold massert; match goal with |- nr ((if ?x then _ else _) _) => destruct x end; exact I|].
        apply nr_mbind; [exact I|]. intros z s6. apply nr_mbind; [destruct z; exact I|]. intros _ s7.
        unfold massert; match goal with |- nr ((if ?x then _ else _) _) => destruct x end; exact I. }
      intros _ s6. repeat (apply nr_mbind; [first [exact I|unfold massert; match goal with |- nr ((if ?x then _ else _) _) => destruct x end; exact I]|intros ? ?]). exact I.
    - destruct H as [H2 H1]. apply nr_mbind; [exact I|]. intros b s1.
      apply nr_mbind; [apply nr_mdispatch; intros; apply IH1, H1|]. intros o1 s2.
      apply nr_mbind; [apply nr_mdispatch; intros; apply IH2, H2|]. intros o2 s3.
      repeat (apply nr_mbind; [first [exact I|unfold massert; match goal with |- nr ((if ?x then _ else _) _) => destruct x end; exact I]|intros ? ?]). exact I.
    - destruct H as [Hp Hq]. apply nr_mbind; [destruct (negb (is_compose p)); exact I|]. intros _ s1.
      apply nr_mbind; [exact I|]. intros b s2.
      apply nr_mbind; [apply nr_mdispatch; intros; apply IHq, Hq|]. intros qo s3.
      apply nr_mbind; [apply nr_with_substitution; intros; apply nr_mdispatch; intros; apply IHp, Hp|]. intros po s4.
      repeat (apply nr_mbind; [first [exact I|match goal with |- nr ((if ?x then _ else _) _) => destruct x end; exact I]|intros ? ?;
        try match goal with |- nr ((let '(_, _) := ?x in _) _) => destruct x end]). exact I.
  Qed.
End NoRand.

(** *** one particle *)
Section Single.
  Context {L : lib} (HL : lib_laws L) (M : measures L) (ML : measure_laws M) (MP : positive_sums M) (sp : string -> Sp M).
  Notation E := (expect M).
  Lemma E_mono {A} (t : stree L A) f g : (forall a, outcome t a -> (f a <= g a)%R) -> (E t f <= E t g)%R.
  Proof.
    induction t as [a|[d rep sh|] k IH]; intros H; cbn [expect].
    - apply H. constructor.
    - apply (int_mono M MP). intros v. apply Rmult_le_compat_l; [left; apply exp_pos|]. apply IH. intros a Ha. apply H. econstructor. exact Ha.
    - lra.
  Qed.
  Lemma E_affine {A} (t : stree L A) f a c : nr t -> E t (fun x => (a * f x + c)%R) = (a * E t f + c)%R.
  Proof.
    induction t as [x|[d rep sh|] k IH]; cbn [expect nr]; intros H; [reflexivity| |destruct H].
    transitivity (integral M (space M d) (fun v => (a * (pmass M d v * E (k v) f) + c * exp (lw M (logp L d v)))%R)).
    - apply (int_ext M ML). intros v. rewrite (IH v (H v)). unfold pmass. ring.
    - rewrite (int_plus M MP (space M d) (fun v => (a * (pmass M d v * E (k v) f))%R) (fun v => (c * exp (lw M (logp L d v)))%R)), !(int_scale M ML), (normalised M ML). ring.
  Qed.

  Lemma pure_returns m : pure M sp m -> exists o, returns_value (L := L) m o.
  Proof.
    induction 1 as [o|a d rep k _ _ IH|a d v rep k _ IH]; [eexists; constructor| |].
    - destruct (IH (tzero L)) as [o Ho]. exists o. econstructor. exact Ho.
    - destruct (IH (tzero L)) as [o Ho]. exists o. econstructor. exact Ho.
  Qed.
  Lemma target_ok_nr C t : forall c kws, target_ok M sp C t c kws -> no_resample t.
  Proof.
    induction t as [oid sg m|oid q IH ix l0 rs dbg|oid p IHp f IHf o|oid q2 IH2 q1 IH1 o|oid p IHp q IHq o tf n]; intros c kws H; cbn in H |- *; try exact I; try contradiction.
    destruct f; try contradiction. split; [eapply IHp, H|exact I].
  Qed.
  Lemma weightable_nr t : forall c kws, weightable M sp t c kws -> no_resample t.
  Proof.
    induction t as [oid sg m|oid q IH ix l0 rs dbg|oid p IHp f IHf o|oid q2 IH2 q1 IH1 o|oid p IHp q IHq o tf n]; intros c kws H; cbn in H |- *; try exact I; try contradiction.
    - destruct H as [H1 H2]. split; [|eapply IH1, H1]. destruct (pure_returns _ (weightable_pure M sp _ _ _ H1)) as [o' Ho]. eapply IH2, H2, Ho.
    - destruct H as (_ & Hq & C & _ & Hp & _). split; [eapply target_ok_nr, Hp|eapply IHq, Hq].
  Qed.

  Theorem single_bound t c kws s :
    weightable M sp t c kws -> wf_dict kws -> clean s -> clash ["self"; "c"; "fn"] kws = false ->
    (forall e s', ~ raises (run t c kws) s e s') ->
    (0 < density_sum M (target t c kws) (fun _ _ => 1))%R ->
    (E (run t c kws s) (log_weight_of M) <= ln (density_sum M (target t c kws) (fun _ _ => 1)))%R.
  Proof.
    intros Hw Hk Hs Hc Hr HZ. set (Z := density_sum M (target t c kws) (fun _ _ => 1%R)) in *.
    assert (EZ : E (run t c kws s) (weighted M (fun _ _ => 1%R)) = Z).
    { unfold Z. eapply properly_weighted_spec; try eassumption. intros; reflexivity. }
    apply Rle_trans with (E (run t c kws s) (fun x => / Z * weighted M (fun _ _ => 1%R) x + (ln Z - 1))%R).
    - apply E_mono. intros [[o|e] s'] Hx; [|destruct (Hr e s' Hx)].
      unfold log_weight_of, weighted. cbn [fst]. rewrite Rmult_1_r. rewrite <- (ln_exp (lw M (out_lw o))) at 1.
      apply ln_tangent; [apply exp_pos|exact HZ].
    - rewrite E_affine by (apply nr_run; eapply weightable_nr, Hw). rewrite EZ. rewrite Rinv_l by lra. lra.
  Qed.
End Single.

(** *** populations *)
Section Population.
  Context {LV LS : lib} (M : measures LS) (ML : measure_laws M) (W : array_view LV) (N B : nat)
          (P : population LV LS) (PL : population_laws W N B P M) (supp : D LV -> T LV -> Prop) (PP : positive_population W N B P supp) (HN : 0 < N) (HB : 0 < B).
  Notation EV := (expectation P). Notation poss := (possible W N B). Notation aris := (arises W B supp).

  Lemma mean_const d c : mean P d (fun _ => c) = c.
  Proof.
    transitivity (mean P d (fun v => (fun _ : T LS => c) (part P 0 0 v))); [reflexivity|].
    rewrite (mean_part _ _ _ _ _ PL d 0 0 (fun _ => c) HN HB).
    transitivity (integral M (space M (dpart P 0 0 d)) (fun x => (c * exp (lw M (logp LS (dpart P 0 0 d) x)))%R)).
    - apply (int_ext M ML). intros v. unfold pmass. ring.
    - rewrite (int_scale M ML), (normalised M ML). ring.
  Qed.
  Lemma mean_affine d f a c : mean P d (fun v => (a * f v + c)%R) = (a * mean P d f + c)%R.
  Proof. rewrite (mean_plus _ _ _ _ _ PL d (fun v => (a * f v)%R) (fun _ => c)), (mean_scale _ _ _ _ _ PL), mean_const. reflexivity. Qed.

  (** *** without torch.rand *)
  Lemma nr_norand {A} (t : stree LV A) : nr t -> norand W N B t.
  Proof. induction t as [a|[d rep sh|] k IH]; cbn [nr norand]; auto. Qed.
  Lemma EV_mono_nr {A} (t : stree LV A) f g : nr t -> (forall a, poss t a -> (f a <= g a)%R) -> (EV t f <= EV t g)%R.
  Proof.
    induction t as [a|[d rep sh|] k IH]; cbn [expectation nr]; intros Hn H; [apply H; constructor| |destruct Hn].
    apply (mean_mono _ _ _ _ _ PP). intros v Hv. apply IH; [apply Hn|]. intros a Ha. apply H. econstructor; [eapply (supp_particles _ _ _ _ _ PP), Hv|exact Ha].
  Qed.
  Lemma EV_affine_nr {A} (t : stree LV A) f a c : nr t -> EV t (fun x => (a * f x + c)%R) = (a * EV t f + c)%R.
  Proof.
    induction t as [x|[d rep sh|] k IH]; cbn [expectation nr]; intros H; [reflexivity| |destruct H].
    rewrite <- mean_affine. apply (mean_ext _ _ _ _ _ PL). intros v _. apply IH, H.
  Qed.

  (** *** bounded functions *)
  Lemma aris_poss {A} (t : stree LV A) a : aris t a -> poss t a.
  Proof. induction 1; econstructor; try eassumption. eapply (supp_particles _ _ _ _ _ PP). eassumption. Qed.
  Lemma mean_ext_supp d f g : (forall v, supp d v -> f v = g v) -> mean P d f = mean P d g.
  Proof. intros H. apply Rle_antisym; apply (mean_mono _ _ _ _ _ PP); intros v Hv; rewrite (H v Hv); lra. Qed.
  Lemma EV_const {A} (t : stree LV A) c : EV t (fun _ => c) = c.
  Proof.
    induction t as [x|[d rep sh|] k IH]; cbn [expectation]; [reflexivity| |].
    - etransitivity; [|apply (mean_const d c)]. apply (mean_ext _ _ _ _ _ PL). intros v _. apply IH.
    - transitivity (mean_offset P (fun v => (0 * c + c)%R)); [apply (offset_ext _ _ _ _ _ PL); intros v _; rewrite IH; ring|].
      rewrite (offset_affine _ _ _ _ _ PP (fun _ => c)); [ring| |lra].
      exists (Rabs c). intros v _. pose proof (Rle_abs c). pose proof (Rle_abs (- c)). rewrite Rabs_Ropp in H0. lra.
  Qed.
  Lemma EV_mono_within {A} (t : stree LV A) K : forall f g, (forall a, aris t a -> (- K <= f a <= K)%R) -> (forall a, aris t a -> (- K <= g a <= K)%R) ->
    (forall a, aris t a -> (f a <= g a)%R) -> (EV t f <= EV t g)%R /\ (- K <= EV t f <= K)%R /\ (- K <= EV t g <= K)%R.
  Proof.
    induction t as [x|[d rep sh|] k IH]; cbn [expectation]; intros f g Hf Hg H.
    - repeat split; try apply H; try apply Hf; try apply Hg; constructor.
    - assert (Hi : forall v, supp d v -> (EV (k v) f <= EV (k v) g)%R /\ (- K <= EV (k v) f <= K)%R /\ (- K <= EV (k v) g <= K)%R).
      { intros v Hv. apply IH; intros a Ha; [apply Hf|apply Hg|apply H]; econstructor; try exact Hv; exact Ha. }
      assert (Hb : forall h, (forall v, supp d v -> (- K <= h v <= K)%R) -> (- K <= mean P d h <= K)%R).
      { intros h Hh. split; [apply Rle_trans with (mean P d (fun _ => - K)%R); [rewrite mean_const; lra|]|apply Rle_trans with (mean P d (fun _ => K)); [|rewrite mean_const; lra]];
          apply (mean_mono _ _ _ _ _ PP); intros v Hv; apply Hh, Hv. }
      split; [apply (mean_mono _ _ _ _ _ PP)|split; apply Hb]; intros v Hv; apply (Hi v Hv).
    - assert (Hi : forall v, offsets W B v -> (EV (k v) f <= EV (k v) g)%R /\ (- K <= EV (k v) f <= K)%R /\ (- K <= EV (k v) g <= K)%R).
      { intros v Hv. apply IH; intros a Ha; [apply Hf|apply Hg|apply H]; econstructor; try exact Hv; exact Ha. }
      assert (Bf : bounded W B (fun v => EV (k v) f)) by (exists K; intros v Hv; apply Hi, Hv).
      assert (Bg : bounded W B (fun v => EV (k v) g)) by (exists K; intros v Hv; apply Hi, Hv).
      assert (C : forall c, mean_offset P (fun _ => c) = c) by (intros c; apply (EV_const (Draw DrawRand (fun _ => Leaf tt)) c)).
      assert (Bc : forall c, bounded W B (fun _ => c)).
      { intros c. exists (Rabs c). intros v _. pose proof (Rle_abs c). pose proof (Rle_abs (- c)). rewrite Rabs_Ropp in H1. lra. }
      assert (Hb : forall h, (forall v, offsets W B v -> (- K <= h v <= K)%R) -> (- K <= mean_offset P h <= K)%R).
      { intros h Hh. assert (Bh : bounded W B h) by (exists K; exact Hh).
        split; [apply Rle_trans with (mean_offset P (fun _ => - K)%R); [rewrite C; lra|]|apply Rle_trans with (mean_offset P (fun _ => K)); [|rewrite C; lra]];
          apply (offset_mono _ _ _ _ _ PP); auto; intros v Hv; apply Hh, Hv. }
      split; [apply (offset_mono _ _ _ _ _ PP _ _ Bf Bg)|split; apply Hb]; intros v Hv; apply (Hi v Hv).
  Qed.
  Lemma EV_affine_within {A} (t : stree LV A) K a c : (0 <= a)%R -> forall f, (forall x, aris t x -> (- K <= f x <= K)%R) ->
    EV t (fun x => (a * f x + c)%R) = (a * EV t f + c)%R.
  Proof.
    intros Ha. induction t as [x|[d rep sh|] k IH]; cbn [expectation]; intros f Hf; [reflexivity| |].
    - rewrite <- mean_affine. apply mean_ext_supp. intros v Hv. apply IH. intros x Hx. apply Hf. econstructor; [exact Hv|exact Hx].
    - assert (Hi : forall v, offsets W B v -> forall x, aris (k v) x -> (- K <= f x <= K)%R) by (intros v Hv x Hx; apply Hf; econstructor; [exact Hv|exact Hx]).
      rewrite <- (offset_affine _ _ _ _ _ PP (fun v => EV (k v) f)); [|exists K; intros v Hv; apply (EV_mono_within (k v) K f f (Hi v Hv) (Hi v Hv)); intros; lra|exact Ha].
      apply (offset_ext _ _ _ _ _ PL). intros v Hv. apply IH. exact (Hi v Hv).
  Qed.

  (** *** the bound *)
  Definition total_weight b (o : out LV) : R := (rsum (map (fun s => exp (particle_weight W s b (out_lw o))) (seq 0 N)) / INR N)%R.
  Lemma INR_N : (0 < INR N)%R.
  Proof. apply lt_0_INR. exact HN. Qed.
  Lemma rsum_pos {I} (f : I -> R) l : l <> [] -> (forall i, In i l -> (0 < f i)%R) -> (0 < rsum (map f l))%R.
  Proof.
    destruct l as [|i l]; [congruence|]. intros _. revert i. induction l as [|j l IH]; intros i H; cbn.
    - rewrite Rplus_0_r. apply H. left. reflexivity.
    - apply Rplus_lt_0_compat; [apply H; left; reflexivity|]. apply (IH j). intros x Hx. apply H. right. exact Hx.
  Qed.
  Lemma total_pos b o : (0 < total_weight b o)%R.
  Proof.
    apply Rdiv_lt_0_compat; [|apply INR_N]. apply rsum_pos; [destruct N; [lia|discriminate]|]. intros s _. apply exp_pos.
  Qed.
  Lemma rsum_within {I} (f : I -> R) l lo hi : (forall i, In i l -> (lo <= f i <= hi)%R) -> (INR (length l) * lo <= rsum (map f l) <= INR (length l) * hi)%R.
  Proof.
    induction l as [|i l IH]; intros H; [cbn; lra|]. cbn [map length]. rewrite S_INR.
    change (rsum (f i :: map f l)) with (f i + rsum (map f l))%R.
    pose proof (IH (fun j Hj => H j (or_intror Hj))). pose proof (H i (or_introl eq_refl)). lra.
  Qed.
  Lemma total_within b o K : (forall s, s < N -> (- K <= particle_weight W s b (out_lw o) <= K)%R) -> (exp (- K) <= total_weight b o <= exp K)%R.
  Proof.
    intros H. unfold total_weight. pose proof INR_N.
    destruct (rsum_within (fun s => exp (particle_weight W s b (out_lw o))) (seq 0 N) (exp (- K)) (exp K)) as [H1 H2].
    - intros s Hs. apply in_seq in Hs. destruct (H s ltac:(lia)) as [Ha Hb].
      split; [destruct Ha as [Ha | <-]; [left; apply exp_increasing, Ha|lra]|destruct Hb as [Hb | ->]; [left; apply exp_increasing, Hb|lra]].
    - rewrite seq_length in H1, H2. split.
      + apply Rmult_le_reg_l with (INR N); [assumption|]. unfold Rdiv. rewrite <- Rmult_assoc, (Rmult_comm (INR N) (rsum _)), Rmult_assoc, Rinv_r, Rmult_1_r by lra. exact H1.
      + apply Rmult_le_reg_l with (INR N); [assumption|]. unfold Rdiv. rewrite <- Rmult_assoc, (Rmult_comm (INR N) (rsum _)), Rmult_assoc, Rinv_r, Rmult_1_r by lra. exact H2.
  Qed.
  Lemma wavg_total b x : weighted_average W N P b (fun _ _ => 1%R) x = match fst x with Ok o => total_weight b o | Err _ => 0%R end.
  Proof.
    unfold weighted_average, total_weight. destruct (fst x) as [o|e]; [|reflexivity]. do 2 f_equal. apply map_ext. intros s. ring.
  Qed.
  Lemma tangent_at b x Z : (0 < Z)%R -> (exists o, fst x = Ok o) ->
    (log_evidence W N b x <= / Z * weighted_average W N P b (fun _ _ => 1%R) x + (ln Z - 1))%R.
  Proof.
    intros HZ [o E]. rewrite wavg_total. unfold log_evidence. rewrite E. apply ln_tangent; [apply total_pos|exact HZ].
  Qed.

  Theorem bound_nr (t : stree LV (res (out LV) * st LV)) b Z : nr t -> (0 < Z)%R -> (forall e s', ~ poss t (Err e, s')) ->
    EV t (weighted_average W N P b (fun _ _ => 1%R)) = Z -> (EV t (log_evidence W N b) <= ln Z)%R.
  Proof.
    intros Hn HZ Hq HE.
    apply Rle_trans with (EV t (fun x => / Z * weighted_average W N P b (fun _ _ => 1%R) x + (ln Z - 1))%R).
    - apply EV_mono_nr; [exact Hn|]. intros [[o|e] s'] Hx; [|destruct (Hq e s' Hx)]. apply tangent_at; [exact HZ|]. eexists. reflexivity.
    - rewrite EV_affine_nr by exact Hn. rewrite HE, Rinv_l by lra. lra.
  Qed.
  Theorem bound_within (t : stree LV (res (out LV) * st LV)) b Z K : (0 < Z)%R -> (forall e s', ~ poss t (Err e, s')) ->
    (forall o s', aris t (Ok o, s') -> forall s, s < N -> (- K <= particle_weight W s b (out_lw o) <= K)%R) ->
    EV t (weighted_average W N P b (fun _ _ => 1%R)) = Z -> (EV t (log_evidence W N b) <= ln Z)%R.
  Proof.
    intros HZ Hq HK HE. pose proof (Rinv_0_lt_compat Z HZ) as HI.
    assert (Hw : forall x, aris t x -> (- exp K <= weighted_average W N P b (fun _ _ => 1%R) x <= exp K)%R).
    { intros [[o|e] s'] Hx; [|destruct (Hq e s' (aris_poss _ _ Hx))]. rewrite wavg_total. cbn [fst]. destruct (total_within b o K (HK _ _ Hx)).
      pose proof (exp_pos K). pose proof (exp_pos (- K)). lra. }
    set (U := (K + / Z * exp K + Rabs (ln Z - 1))%R).
    assert (HU : forall o s', aris t (Ok o, s') -> (- U <= log_evidence W N b (Ok o, s') <= U)%R).
    { intros o s' Hx. destruct (total_within b o K (HK _ _ Hx)) as [H1 H2]. pose proof (total_pos b o).
      unfold log_evidence. cbn [fst]. fold (total_weight b o).
      assert (- K <= ln (total_weight b o) <= K)%R.
      { split; [rewrite <- (ln_exp (- K)); apply ln_mono; [apply exp_pos|exact H1]|rewrite <- (ln_exp K); apply ln_mono; assumption]. }
      unfold U. pose proof (Rabs_pos (ln Z - 1)). pose proof (Rmult_lt_0_compat _ _ HI (exp_pos K)). lra. }
    apply Rle_trans with (EV t (fun x => / Z * weighted_average W N P b (fun _ _ => 1%R) x + (ln Z - 1))%R).
    - apply (EV_mono_within t U).
      + intros [[o|e] s'] Hx; [apply (HU o s' Hx)|destruct (Hq e s' (aris_poss _ _ Hx))].
      + intros x Hx. destruct (Hw x Hx) as [H1 H2]. unfold U.
        pose proof (Rle_abs (ln Z - 1)). pose proof (Rle_abs (- (ln Z - 1))). rewrite Rabs_Ropp in H0.
        apply (Rmult_le_compat_l (/ Z)) in H1; [|lra]. apply (Rmult_le_compat_l (/ Z)) in H2; [|lra].
        assert (0 <= K)%R.
        { destruct x as [[o|e] s']; [|destruct (Hq e s' (aris_poss _ _ Hx))]. pose proof (HK _ _ Hx 0 HN). lra. }
        rewrite Ropp_mult_distr_r_reverse in H1. lra.
      + intros [[o|e] s'] Hx; [|destruct (Hq e s' (aris_poss _ _ Hx))]. apply tangent_at; [exact HZ|]. eexists. reflexivity.
    - rewrite (EV_affine_within t (exp K)) by (try exact Hw; lra). rewrite HE, Rinv_l by lra. lra.
  Qed.
End Population.
