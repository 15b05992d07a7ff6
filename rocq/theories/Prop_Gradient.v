(** Property C63: which parameters the gradients of nested objectives reach. *)
From Coq Require Import Reals Lra.
From Verif Require Import Thm_Gradient Instances.
Open Scope nat_scope.

(** C63. Called in a state in which nothing is conditioned, on inputs that depend on the
    parameters [A] only: the trace, the log-weight and the output of the result depend only on
    the parameters of the exposed programs (and [A]); what a Propose stores for its objective
    depends only on the parameters exposed by its target and by its proposal. *)
Theorem C63_result {L : lib} (G : tape L) (par : nat -> params G) (flat : nat -> bool) (t : inf L) (A : params G) c kws s o s' :
  tape_laws G -> tracked G par flat t -> fresh_call G A c kws s -> gives G (run t c kws) s o s' ->
  result_dep G (within G par A (exposed flat t)) o /\
  forall px, out_px o = Some px -> px_dep G (within G par A (level flat t)) px.
Proof.
  intros GL Ht Hf H. pose proof (fresh_state G A c kws s Hf) as Hs. destruct Hf as (Hk & _ & Hc & Hkw).
  pose proof (traced_run G GL par flat t Ht A c kws s Hk Hc Hkw Hs _ H o eq_refl) as R. split; [|apply R].
  split; [|split; apply R]. eapply trace_mono; [exact GL|apply p_refl|apply dens_within|apply R].
Qed.
Print Assumptions C63_result.

(** The loss of a nested program is a constant plus one term for each Propose on the way down its
    proposals, each term depending only on the parameters of that Propose's own level. *)
Theorem C63_loss {L : lib} (G : tape L) (par : nat -> params G) (flat : nat -> bool) (t : inf L) (A : params G) c kws s o s' l :
  tape_laws G -> tracked G par flat t -> trained G t -> fresh_call G A c kws s -> gives G (run t c kws) s o s' -> out_loss o = Some l ->
  sum_of_levels G par A (levels flat t) l.
Proof.
  intros GL Ht Htr Hf H El. pose proof (fresh_state G A c kws s Hf) as Hs. destruct Hf as (Hk & _ & Hc & Hkw).
  pose proof (traced_run G GL par flat t Ht A c kws s Hk Hc Hkw Hs _ H o eq_refl) as R. pose proof (tr_loss _ _ _ _ _ _ R Htr) as Hl.
  rewrite El in Hl. exact Hl.
Qed.
Print Assumptions C63_loss.

(** The annealing sampler, with any number of steps, with or without resampling: its loss is a
    constant plus one term for each step, and the term of step k depends only on the parameters of
    the targets k and k+1 and of the forward and the reverse kernel of that step. *)
Theorem C63_annealing {L : lib} (G : tape L) (par : nat -> params G) (pb : problem L) detach_dist base loss_fn avo resample (rs : resampler L)
    K q (A : params G) c kws s o s' l :
  tape_laws G -> problem_tracked G par pb -> (forall X d, ddep G X d -> ddep G X (detach_dist d)) ->
  tracks_term G loss_fn -> resampler_tracks G rs ->
  vsmc detach_dist base (pb_targets pb K) (pb_forwards pb K) (pb_reverses pb K) loss_fn avo resample rs = Ok q ->
  fresh_call G A c kws s -> gives G (run q c kws) s o s' -> out_loss o = Some l ->
  sum_of_levels G par A (map (step_programs pb) (rev (seq 0 K))) l.
Proof.
  intros GL PT Hdd Hl Hrs Hq Hf H El.
  destruct (vsmc_levels G GL par detach_dist Hdd loss_fn Hl avo resample rs Hrs base pb PT K q Hq) as (flat & H1 & H2 & <-).
  eapply C63_loss; eassumption.
Qed.
Print Assumptions C63_annealing.

(** ** Tensors as functions of the parameters
    [e p0 p]: the value at the parameters [p] of an expression whose detached parts are frozen at
    the parameters [p0] (as in Objectives.v, with a flag for "is a torch.Tensor"). Distributions are
    normal with a mean that may depend on the parameters; [logp] leaves out the constants. *)
Definition env : Type := nat -> R.
Definition dual : Type := (bool * (env -> env -> R))%type.
Definition RL : lib := {|
  T := dual; D := env -> env -> R;
  tzero := (false, fun _ _ => 0%R);
  tadd := fun a b => (fst a || fst b, fun p0 p => (snd a p0 p + snd b p0 p)%R);
  tsub := fun a b => (fst a || fst b, fun p0 p => (snd a p0 p - snd b p0 p)%R);
  detach := fun a => (fst a, fun p0 _ => snd a p0 p0);
  is_tensor := fst;
  to_tensor := fun a => (true, snd a);
  eq_zero := fun a => Ok (negb (fst a));
  tensor_equal := fun _ _ => true;
  bsum := fun _ _ a => a;
  logp := fun d v => (true, fun p0 p => (- ((snd v p0 p - d p0 p) * (snd v p0 p - d p0 p)))%R);
  lj_ok := fun _ _ _ => true;
  order := fun l => l |}.
Definition same_on (X : nat -> Prop) (p p' : env) : Prop := forall i, X i -> p i = p' i.
Definition only (X : nat -> Prop) (e : env -> env -> R) : Prop := forall p0 p p', same_on X p p' -> e p0 p = e p0 p'.
Definition RG : tape RL := @mkTape RL nat (fun X t => only X (snd t)) (fun X d => only X d).
Lemma RG_laws : tape_laws RG.
Proof.
  constructor; cbn; unfold only.
  - intros X Y t Hi H p0 p p' Hs. apply H. intros i Hx. apply Hs, Hi, Hx.
  - intros X Y t Hi H p0 p p' Hs. apply H. intros i Hx. apply Hs, Hi, Hx.
  - reflexivity.
  - intros X a b Ha Hb p0 p p' Hs. rewrite (Ha _ _ _ Hs), (Hb _ _ _ Hs). reflexivity.
  - intros X a b Ha Hb p0 p p' Hs. rewrite (Ha _ _ _ Hs), (Hb _ _ _ Hs). reflexivity.
  - reflexivity.
  - intros X a Ha. exact Ha.
  - intros X _ _ a Ha. exact Ha.
  - intros X d v Hd Hv p0 p p' Hs. rewrite (Hd _ _ _ Hs), (Hv _ _ _ Hs). reflexivity.
Qed.

(** the partial derivative at [p] by the parameter [i] *)
Definition update (p : env) (i : nat) (x : R) : env := fun j => if Nat.eqb j i then x else p j.
Definition has_partial (e : env -> env -> R) (i : nat) (p : env) (g : R) : Prop :=
  derivable_pt_lim (fun x => e p (update p i x)) (p i) g.

(** There, a tensor that depends on [X] only has partial derivative 0 by every other parameter. *)
Theorem C63_no_gradient (X : nat -> Prop) (t : T RL) (i : nat) (p : env) :
  dep RG X t -> ~ X i -> has_partial (snd t) i p 0.
Proof.
  intros H Hi. unfold has_partial. cbn in H.
  assert (E : forall x, snd t p (update p i x) = snd t p p).
  { intros x. apply H. intros j Hj. unfold update. destruct (Nat.eqb j i) eqn:Ej; [|reflexivity]. apply Nat.eqb_eq in Ej. subst. contradiction. }
  intros eps Heps. exists (mkposreal 1 Rlt_0_1). intros h _ _. rewrite !E. replace ((snd t p p - snd t p p) / h - 0)%R with 0%R by lra. rewrite Rabs_R0. exact Heps.
Qed.
Print Assumptions C63_no_gradient.

(** ** The other direction: hierarchical targets
    Two nested Proposes over x and y. The inner proposal draws x around parameter 1 (which belongs
    to program 1 alone) and y; the inner target has y ~ Normal(x, 1); the outer target has no
    parameters. All of x's and y's values are detached between the levels, and yet the outer
    incremental log-weight has derivative -4 by the inner proposal's parameter: the inner target's
    distribution of y, built from the x that was not detached, is evaluated again. *)
Definition rsig : sig := mkSig ["self"; "trace"; "c"] [] true.
Definition mean0 : D RL := (fun _ _ => 0%R).
Definition qx : inf RL := IProg (L := RL) 1 rsig (fun _ _ => MVar (L := RL) "x" (fun _ p => p 1) None true (fun x => MRet (L := RL) (VDict [("x", VTensor x)]))).
Definition qy : inf RL := IProg (L := RL) 2 rsig (fun _ _ => MVar (L := RL) "y" mean0 None true (fun y => MRet (L := RL) (VDict [("y", VTensor y)]))).
Definition p_hier : inf RL := IProg (L := RL) 3 rsig (fun _ _ => MVar (L := RL) "x" mean0 None true (fun x =>
  MVar (L := RL) "y" (snd x) None true (fun y => MRet (L := RL) (VDict [("x", VTensor x); ("y", VTensor y)])))).
Definition p_flat : inf RL := IProg (L := RL) 4 rsig (fun _ _ => MVar (L := RL) "x" mean0 None true (fun x =>
  MVar (L := RL) "y" mean0 None true (fun y => MRet (L := RL) (VDict [("x", VTensor x); ("y", VTensor y)])))).
Definition ropts : infopts RL := mkOpts (L := RL) (fun o l => match out_px o with Some px => Ok (tadd RL (px_lv px) l) | None => Err AttributeError end) None VNone false.
Definition nested (p1 : inf RL) : inf RL :=
  IPropose (L := RL) 10 p_flat
    (IPropose (L := RL) 11 p1 (ICompose (L := RL) 12 qy qx (mkOpts (L := RL) default_loss None VNone false)) ropts None false) ropts None false.
Definition rpar (i : nat) : nat -> Prop := fun j => i = 1 /\ j = 1.
Definition zeros : env := fun _ => 0%R.

Lemma gives_by {L : lib} (G : tape L) {A B} (m : M L A) s vs (f : A -> st L -> B) ds b :
  match walkd (m s) vs with Some (ds, (Ok o, s')) => Some (ds, f o s') | _ => None end = Some (ds, b) ->
  Forall (fun dv => recorded G (fst dv) (snd dv)) ds -> exists o s', gives G m s o s' /\ f o s' = b.
Proof.
  destruct (walkd (m s) vs) as [[ds' [[o|e] s']]|] eqn:E; intros H; try discriminate. injection H as -> <-. intros Hd.
  exists o, s'. split; [|reflexivity]. apply walkd_path in E. unfold gives. revert E Hd. generalize (m s). intros t E. clear - E.
  induction E as [a|d k v ds a H IH]; intros Hd; inversion Hd; subst; econstructor; eauto.
Qed.
Definition draw_x : T RL := (true, fun _ p => (p 1%nat + 1)%R).
Definition draw_y : T RL := (true, fun _ _ => (0 + 3)%R).
Lemma draws_recorded : recorded RG (DrawDist (L := RL) (fun _ p => p 1) true VNone) draw_x /\ recorded RG (DrawDist (L := RL) mean0 true VNone) draw_y.
Proof.
  split; cbn; unfold only; cbn; [|reflexivity]. intros X H p0 p p' Hs. rewrite (H p0 p p' Hs). reflexivity.
Qed.
Definition lv_of (o : out RL) (_ : st RL) : option (T RL) := option_map px_lv (out_px o).

Theorem C63_hierarchical_refuted : exists o s' px,
  gives RG (run (nested p_hier) VNone []) (st0 RL) o s' /\ out_px o = Some px /\ has_partial (snd (px_lv px)) 1 zeros (-4).
Proof.
  edestruct (gives_by RG (run (nested p_hier) VNone []) (st0 RL) [draw_x; draw_y] lv_of) as (o & s' & H & E).
  - lazy -[Rplus Rminus Rmult Ropp IZR]. reflexivity.
  - repeat constructor; apply draws_recorded.
  - unfold lv_of in E. destruct (out_px o) as [px|] eqn:Ep; [|discriminate]. exists o, s', px. split; [exact H|]. split; [exact Ep|].
    cbn [option_map] in E. injection E as E. rewrite E. unfold has_partial, zeros, update. cbn [snd Nat.eqb].
    intros eps Heps. exists (mkposreal eps Heps). intros h Hh Hlt. cbn [pos] in Hlt.
    match goal with |- (Rabs ?x < _)%R => replace x with h by (field; exact Hh) end. exact Hlt.
Qed.
Print Assumptions C63_hierarchical_refuted.

(** By default (_no_reruns=True) nothing of the trace is detached between the levels: even with flat
    targets the outer incremental log-weight has derivative -10 by the inner proposal's parameter. *)
Definition p_five : inf RL := IProg (L := RL) 5 rsig (fun _ _ => MVar (L := RL) "x" (fun _ _ => 5%R) None true (fun x =>
  MVar (L := RL) "y" mean0 None true (fun y => MRet (L := RL) (VDict [("x", VTensor x); ("y", VTensor y)])))).
Definition nested_default (p1 : inf RL) : inf RL :=
  IPropose (L := RL) 10 p_flat
    (IPropose (L := RL) 11 p1 (ICompose (L := RL) 12 qy qx (mkOpts (L := RL) default_loss None VNone false)) ropts None true) ropts None true.
Theorem C63_default_refuted : exists o s' px,
  gives RG (run (nested_default p_five) VNone []) (st0 RL) o s' /\ out_px o = Some px /\ has_partial (snd (px_lv px)) 1 zeros (-10).
Proof.
  edestruct (gives_by RG (run (nested_default p_five) VNone []) (st0 RL) [draw_x; draw_y] lv_of) as (o & s' & H & E).
  - lazy -[Rplus Rminus Rmult Ropp IZR]. reflexivity.
  - repeat constructor; apply draws_recorded.
  - unfold lv_of in E. destruct (out_px o) as [px|] eqn:Ep; [|discriminate]. exists o, s', px. split; [exact H|]. split; [exact Ep|].
    cbn [option_map] in E. injection E as E. rewrite E. unfold has_partial, zeros, update. cbn [snd Nat.eqb].
    intros eps Heps. exists (mkposreal 1 Rlt_0_1). intros h Hh _.
    match goal with |- (Rabs ?x < _)%R => replace x with 0%R by (field; exact Hh) end. rewrite Rabs_R0. exact Heps.
Qed.
Print Assumptions C63_default_refuted.

(** ** Cases *)
Lemma computes_xy (X F : params RG) i (my : T RL -> D RL) (c : pyval dual) kws : (forall v, dep RG X v -> ddep RG F (my v)) ->
  computes RG X F ((match IProg (L := RL) i rsig (fun _ _ => MVar (L := RL) "x" mean0 None true (fun x =>
  MVar (L := RL) "y" (my x) None true (fun y => MRet (L := RL) (VDict [("x", VTensor x); ("y", VTensor y)])))) with IProg _ _ m => m | _ => fun _ _ => MRaise (L := RL) TypeError end) c kws).
Proof.
  intros Hm. constructor; [intros p0 p p' _; reflexivity|]. intros x Hx. constructor; [apply Hm, Hx|]. intros y Hy. constructor; [cbn; auto|].
  intros k v [[= <- <-]|[[= <- <-]|[]]]; left; eauto.
Qed.
Definition rflat (i : nat) : bool := Nat.eqb i 4.
Lemma nested_tracked p1 : tracked RG rpar rflat p1 -> tracked RG rpar rflat (nested p1) /\ trained RG (nested p1).
Proof.
  intros H1. assert (Hx : tracked RG rpar rflat qx).
  { intros A c kws _ _. cbn. constructor; [|intros v Hv; constructor; [cbn; auto|intros k x [[= <- <-]|[]]; left; eauto]].
    intros p0 p p' Hs. apply Hs. right. exists 1. split; [left; reflexivity|split; reflexivity]. }
  assert (Hy : tracked RG rpar rflat qy).
  { intros A c kws _ _. cbn. constructor; [intros p0 p p' _; reflexivity|intros v Hv; constructor; [cbn; auto|intros k x [[= <- <-]|[]]; left; eauto]]. }
  assert (Hp : tracked RG rpar rflat p_flat).
  { intros A c kws _ _. apply (computes_xy _ _ 4 (fun _ => mean0) c kws). cbn. intros v _. intros p0 p p' _. reflexivity. }
  assert (Ht : transf_tracks RG None) by (intros f X tr kws qt [=]).
  assert (Hl : trained RG (nested p1)).
  { assert (G1 : exists g, tracks_term RG g /\ forall r l, in_loss ropts r l = rmap (fun t => tadd RL t l) (g r)).
    { exists (fun o => match out_px o with Some px => Ok (px_lv px) | None => Err AttributeError end). split.
      - intros X r t _ Hpx. destruct (out_px r) as [px|]; [|discriminate]. intros [= <-]. apply (Hpx px eq_refl).
      - intros r l. cbn. destruct (out_px r); reflexivity. }
    assert (Z : no_loss0 RG None) by (intros l [=]).
    cbn [nested trained in_loss in_loss0]. split; [|split; [exact Z|exact G1]]. split; [|split; [exact Z|exact G1]]. split; [exact I|]. split; [exact Z|reflexivity]. }
  split; [|exact Hl]. cbn [nested tracked in_ix]. repeat (split; [first [exact Hp|exact H1|exact Hy|exact Hx|exact Ht|exact I]|]).
  split; [|split; [exact Ht|exact I]]. repeat (split; [first [exact H1|exact Hy|exact Hx|exact Ht|exact I]|]). split; [|split; [exact Ht|exact I]].
  repeat (split; [first [exact H1|exact Hy|exact Hx|exact Ht|exact I]|]). exact I.
Qed.
Lemma rfresh : fresh_call RG (no_param RG) VNone [] (st0 RL).
Proof. split; [split; [constructor|intros k _ []]|]. split; [intros i; reflexivity|]. split; [exact I|intros k v []]. Qed.

(** Both nested programs meet the hypotheses of C63_result and C63_loss. The level of the outer
    Propose has program 1, the inner proposal, only when the inner target is not flat. *)
Example C63_levels_case :
  tracked RG rpar rflat (nested p_hier) /\ tracked RG rpar rflat (nested p_flat) /\ trained RG (nested p_hier) /\ trained RG (nested p_flat) /\
  level rflat (nested p_hier) = [4; 3; 2; 1] /\ level rflat (nested p_flat) = [4; 4] /\ levels rflat (nested p_flat) = [[4; 4]; [4; 2; 1]].
Proof.
  assert (H1 : tracked RG rpar rflat p_hier).
  { intros A c kws _ _. apply (computes_xy _ _ 3 (fun x => snd x) c kws). intros v Hv. exact Hv. }
  assert (H2 : tracked RG rpar rflat p_flat).
  { intros A c kws _ _. apply (computes_xy _ _ 4 (fun _ => mean0) c kws). cbn. intros v _ p0 p p' _. reflexivity. }
  split; [apply nested_tracked, H1|]. split; [apply nested_tracked, H2|]. split; [apply nested_tracked, H1|]. split; [apply nested_tracked, H2|]. repeat split.
Qed.
(** With the flat inner target, in every run, the outer incremental log-weight has derivative 0
    by the inner proposal's parameter; and it does run. *)
Example C63_flat_case : forall o s' px, gives RG (run (nested p_flat) VNone []) (st0 RL) o s' -> out_px o = Some px -> has_partial (snd (px_lv px)) 1 zeros 0.
Proof.
  intros o s' px H E. destruct (C63_result RG rpar rflat (nested p_flat) (no_param RG) VNone [] (st0 RL) o s' RG_laws) as [_ Hpx]; [apply C63_levels_case|apply rfresh|exact H|].
  destruct (Hpx px E) as [Hlv _]. apply (C63_no_gradient _ _ _ _ Hlv). intros [[]|(i & Hi & Hp)]. destruct Hp as [-> _]. cbn in Hi. intuition discriminate.
Qed.
Example C63_flat_runs : exists o s', gives RG (run (nested p_flat) VNone []) (st0 RL) o s' /\ (exists l, out_loss o = Some l) /\ exists px, out_px o = Some px.
Proof.
  edestruct (gives_by RG (run (nested p_flat) VNone []) (st0 RL) [draw_x; draw_y]
     (fun o _ => match out_loss o, out_px o with Some _, Some _ => true | _, _ => false end)) as (o & s' & H & E).
  - lazy -[Rplus Rminus Rmult Ropp IZR]. reflexivity.
  - repeat constructor; apply draws_recorded.
  - exists o, s'. split; [exact H|]. destruct (out_loss o), (out_px o); try discriminate. split; eauto.
Qed.

(** an annealing problem: object [i] has parameter [i]; distributions centred at it *)
Definition aproblem : problem RL :=
  @mkProblem RL (fun _ p => p 0) true
    (fun k => TDens (L := RL) (fun v => (true, fun p0 p => (- ((snd v p0 p - p (3 * k)%nat) * (snd v p0 p - p (3 * k)%nat)))%R)))
    (fun k v p0 p => (snd v p0 p + p (3 * k + 1)%nat)%R) (fun _ => true) (fun k v p0 p => (snd v p0 p - p (3 * k + 2)%nat)%R) (fun _ => true)
    (fun k => 3 * k) (fun k => 3 * k + 1) (fun k => 3 * k + 2).
Definition apar (i : nat) : nat -> Prop := fun j => j = i.
Example C63_annealing_hypotheses : problem_tracked RG apar aproblem /\
  tracks_term RG (fun o => match out_px o with Some px => Ok (px_lv px) | None => Err AttributeError end) /\
  resampler_tracks RG (mkRS (L := RL) rsig (fun tr lw _ => Leaf (Ok (tr, lw)))).
Proof.
  split; [|split].
  - constructor.
    + intros p0 p p' Hs. apply Hs. reflexivity.
    + intros k. cbn [aproblem pb_target pb_oid_t]. intros X v Hi Hv p0 p p' Hs. cbn [snd]. rewrite (Hv p0 p p' Hs), (Hs (3 * k) (Hi _ eq_refl)). reflexivity.
    + intros k X v Hi Hv p0 p p' Hs. cbn [aproblem pb_fwd]. rewrite (Hv p0 p p' Hs), (Hs (3 * k + 1) (Hi _ eq_refl)). reflexivity.
    + intros k X v Hi Hv p0 p p' Hs. cbn [aproblem pb_rev]. rewrite (Hv p0 p p' Hs), (Hs (3 * k + 2) (Hi _ eq_refl)). reflexivity.
    + intros j k. cbn [aproblem pb_oid_t pb_oid_f pb_oid_r]. lia.
  - intros X r t _ Hpx. destruct (out_px r) as [px|]; [|discriminate]. intros [= <-]. apply (Hpx px eq_refl).
  - intros X F tr lw kws items lw2 Ht Hl H. inversion H; subst. auto.
Qed.
Definition avsmc (K : nat) : res (inf RL) :=
  vsmc (L := RL) (fun d p0 _ => d p0 p0) (3 * K + 2) (pb_targets aproblem K) (pb_forwards aproblem K) (pb_reverses aproblem K)
    (fun o => match out_px o with Some px => Ok (px_lv px) | None => Err AttributeError end) false true (mkRS (L := RL) rsig (fun tr lw _ => Leaf (Ok (tr, lw)))).
Definition adraw (d : D RL) (z : R) : T RL := (true, fun p0 p => (d p0 p + z)%R).
Fixpoint centred {A} (t : stree RL A) : option A :=
  match t with Leaf a => Some a | Draw (DrawDist d rep _) k => centred (k (if rep then adraw d 1 else detach RL (adraw d 1))) | Draw _ _ => None end.
Lemma centred_gives {A} (m : M RL A) s o s' : centred (m s) = Some (Ok o, s') -> gives RG m s o s'.
Proof.
  unfold gives. generalize (m s). intros t. induction t as [x|d k IH]; cbn; [intros [= ->]; constructor|]. destruct d as [d rep sh|]; try discriminate. intros H.
  econstructor; [|apply IH, H]. cbn. destruct rep; [|intros X p0 p p' _; reflexivity]. intros X Hd p0 p p' Hs. cbn [adraw snd]. rewrite (Hd p0 p p' Hs). reflexivity.
Qed.
(** the sampler with three steps runs and has a loss *)
Example C63_annealing_runs : exists q o s' l, avsmc 3 = Ok q /\ gives RG (run q VNone []) (st0 RL) o s' /\ out_loss o = Some l.
Proof.
  assert (E : match avsmc 3 with Ok q => match centred (run q VNone [] (st0 RL)) with Some (Ok o, _) => match out_loss o with Some _ => true | None => false end | _ => false end | Err _ => false end = true)
    by (lazy -[Rplus Rminus Rmult Ropp IZR]; reflexivity).
  destruct (avsmc 3) as [q|] eqn:Eq; [|discriminate]. destruct (centred (run q VNone [] (st0 RL))) as [[[o|e] s']|] eqn:Ec; try discriminate.
  destruct (out_loss o) as [l|] eqn:El; [|discriminate]. exists q, o, s', l. split; [reflexivity|]. split; [apply centred_gives, Ec|exact El].
Qed.
