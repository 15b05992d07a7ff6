(** Property C50: nestings of Program, Compose, Extend (as a target) and Propose are properly
    weighted for the unnormalised distribution they target. *)
From Coq Require Import Lra.
From Verif Require Import SpecProper Thm_Proper Instances.

(** The expectation, over all random draws of the run, of exp(log_weight) times any function
    [h] of the returned values and output equals the sum of [h] over the executions of the
    target, weighted by their unnormalised density.  [h] may not depend on the order in
    which the trace lists its addresses.  Hypotheses: the program is covered ([weightable]),
    nothing is conditioned beforehand, and no execution raises. *)
Theorem C50_properly_weighted : forall (L : lib) (HL : lib_laws L) (M : measures L) (ML : measure_laws M) (sp : string -> Sp M)
    t c kws s h,
  weightable M sp t c kws -> wf_dict kws -> clean s -> clash ["self"; "c"; "fn"] kws = false ->
  (forall e s', ~ raises (run t c kws) s e s') ->
  (forall l l' o, Permutation l l' -> h l o = h l' o) ->
  expect M (run t c kws s) (weighted M h) = density_sum M (target t c kws) h.
Proof. intros. eapply properly_weighted_spec; eassumption. Qed.
Print Assumptions C50_properly_weighted.

(** In particular the expected weight is the normalising constant of the target. *)
Theorem C50_normalising_constant : forall (L : lib) (HL : lib_laws L) (M : measures L) (ML : measure_laws M) (sp : string -> Sp M)
    t c kws s,
  weightable M sp t c kws -> wf_dict kws -> clean s -> clash ["self"; "c"; "fn"] kws = false ->
  (forall e s', ~ raises (run t c kws) s e s') ->
  expect M (run t c kws s) (weighted M (fun _ _ => 1%R)) = density_sum M (target t c kws) (fun _ _ => 1%R).
Proof. intros. eapply properly_weighted_spec; eauto. Qed.
Print Assumptions C50_normalising_constant.

(** ** an instance: three-sided dice.  The die [d] shows [d] with probability 1/2 and each of
    the two other sides with probability 1/4; log-densities are counted in units of ln 2. *)
Open Scope Z_scope.
Definition DiceL : lib := {|
  T := Z; D := Z;
  tzero := 0; tadd := Z.add; tsub := Z.sub; detach := fun x => x;
  is_tensor := fun _ => true; to_tensor := fun x => x;
  eq_zero := fun x => Ok (Z.eqb x 0); tensor_equal := Z.eqb;
  bsum := fun _ _ x => x;
  logp := fun d v => if Z.eqb (v mod 3) (d mod 3) then -1 else -2;
  lj_ok := fun _ _ _ => true;
  order := fun l => rev l
|}.
Definition dice : measures DiceL :=
  mkMeasures DiceL (fun x : Z => (IZR x * ln 2)%R) unit (fun _ => tt) (fun _ (f : Z -> R) => (f 0%Z + f 1%Z + f 2%Z)%R).
Lemma DiceL_laws : lib_laws DiceL.
Proof.
  constructor; cbn; intros; try lia. symmetry. apply Permutation_rev.
Qed.
Lemma dice_half : exp (IZR (-1) * ln 2) = (1 / 2)%R.
Proof. replace (IZR (-1) * ln 2)%R with (- ln 2)%R by ring. rewrite exp_Ropp, exp_ln by lra. lra. Qed.
Lemma dice_quarter : exp (IZR (-2) * ln 2) = (1 / 4)%R.
Proof. replace (IZR (-2) * ln 2)%R with (- ln 2 + - ln 2)%R by ring. rewrite exp_plus, exp_Ropp, exp_ln by lra. lra. Qed.
Lemma dice_laws : measure_laws dice.
Proof.
  constructor; cbn; intros.
  - ring.
  - rewrite plus_IZR. ring.
  - rewrite minus_IZR. ring.
  - reflexivity.
  - reflexivity.
  - rewrite !H. reflexivity.
  - ring.
  - ring.
  - change (0 mod 3) with 0. change (1 mod 3) with 1. change (2 mod 3) with 2.
    assert (H : d mod 3 = 0 \/ d mod 3 = 1 \/ d mod 3 = 2) by (pose proof (Z.mod_pos_bound d 3); lia).
    destruct H as [-> | [-> | ->]]; cbn [Z.eqb Pos.eqb]; rewrite dice_half, dice_quarter; lra.
Qed.

(** target: x ~ die 0; observe 1 from die x; extended by z ~ die x.
    proposal: x ~ die 1, then z ~ die 2 with an auxiliary w ~ die z. *)
Definition get_x (c : pyval Z) : Z := match c with VDict d => match dget "x" d with Some (VTensor x) => x | _ => 0 end | _ => 0 end.
Definition dice_p : pyval Z -> dict (pyval Z) -> model DiceL := fun _ _ =>
  MVar (L := DiceL) "x" 0 None true (fun x =>
  MVar (L := DiceL) "y" x (Some (1, None)) true (fun _ => MRet (L := DiceL) (VDict [("x", VTensor x)]))).
Definition dice_f : pyval Z -> dict (pyval Z) -> model DiceL := fun c _ =>
  MVar (L := DiceL) "z" (get_x c) None true (fun z => MRet (L := DiceL) (VDict [("z", VTensor z)])).
Definition dice_q : pyval Z -> dict (pyval Z) -> model DiceL := fun _ _ =>
  MVar (L := DiceL) "x" 1 None true (fun x => MRet (L := DiceL) (VDict [("x", VTensor x)])).
Definition dice_k : pyval Z -> dict (pyval Z) -> model DiceL := fun _ _ =>
  MVar (L := DiceL) "z" 2 None true (fun z => MVar (L := DiceL) "w" z None true (fun w => MRet (L := DiceL) (VDict [("w", VTensor w)]))).
Definition no_opts : infopts DiceL := mkOpts (L := DiceL) (fun _ l => Ok l) None VNone false.
Definition dice_t : inf DiceL :=
  IPropose (L := DiceL) 0%nat
    (IExtend (L := DiceL) 1%nat (IProg (L := DiceL) 2%nat sig_model dice_p) (IProg (L := DiceL) 3%nat sig_model dice_f) no_opts)
    (ICompose (L := DiceL) 4%nat (IProg (L := DiceL) 5%nat sig_model dice_k) (IProg (L := DiceL) 6%nat sig_model dice_q) no_opts)
    no_opts None false.

(** no leaf of the tree is an error *)
Fixpoint quiet_tree {L : lib} {A} (t : stree L (res A * st L)) : Prop :=
  match t with
  | Leaf (Ok _, _) => True
  | Leaf (Err _, _) => False
  | Draw _ k => forall v, quiet_tree (k v)
  end.
Lemma quiet_tree_ok {L : lib} {A} (m : M L A) s : quiet_tree (m s) -> forall e s', ~ raises m s e s'.
Proof.
  unfold raises. intros H e s' Ho. remember (m s) as t. clear Heqt. remember (Err e, s') as x. revert H.
  induction Ho as [y|d k v y Ho IH]; subst; cbn; [tauto|]. intros H. apply IH; auto.
Qed.

Example C50_hypotheses :
  weightable dice (fun _ => tt) dice_t VNone [] /\ clean (st0 DiceL) /\
  (forall e s', ~ raises (run (L := DiceL) dice_t VNone []) (st0 DiceL) e s').
Proof.
  split; [|split].
  - split; [reflexivity|]. split.
    + split; [|intros c1 _]; cbn; repeat (constructor; [reflexivity|intros ?]); constructor.
    + exists ["x"; "z"]. split; [repeat constructor; cbn; intuition congruence|]. split; [|split; [|split]].
      * cbn. split; [intuition congruence|]. split; [intuition congruence|]. split.
        { repeat constructor. }
        { intros c1 _. split; [repeat constructor|]. split.
          - intros a H. inversion H; subst. match goal with H : observes (MRet _) _ |- _ => inversion H end.
          - intros a H. inversion H; subst; [cbn; auto|]. match goal with H : samples (MRet _) _ |- _ => inversion H end. }
      * cbn. unfold dice_p, dice_f, dice_q, dice_k. eapply (al_hit (L := DiceL)); [apply Permutation_refl|]. intros v. eapply (al_hit (L := DiceL)); [apply Permutation_refl|]. intros w.
        apply (al_skip (L := DiceL)); [cbn; intuition congruence|]. intros u. constructor.
      * cbn. unfold dice_p, dice_f, dice_q, dice_k. eapply (al_hit (L := DiceL)); [apply Permutation_refl|]. intros v. apply (al_skip (L := DiceL)); [cbn; intuition congruence|]. intros w.
        eapply (al_hit (L := DiceL)); [apply Permutation_refl|]. intros u. constructor.
      * intros a _ H. cbn in H. cbn. 
        repeat match goal with H : samples _ _ |- _ => inversion H; clear H; subst; [cbn; auto; fail|] || (inversion H; clear H; subst; fail) || (inversion H; clear H; subst) end; cbn; auto.
  - intros i. reflexivity.
  - apply quiet_tree_ok. vm_compute. intros. exact I.
Qed.
(** the expected weight is the normalising constant 5/16, and the weighted probability of
    x = 0 is 1/8 *)
Example C50_case :
  expect dice (run (L := DiceL) dice_t VNone [] (st0 DiceL)) (weighted dice (fun _ _ => 1%R)) = (5 / 16)%R /\
  expect dice (run (L := DiceL) dice_t VNone [] (st0 DiceL))
    (weighted dice (fun l _ => if existsb (fun av => String.eqb (fst av) "x" && Z.eqb (snd av) 0) l then 1%R else 0%R)) = (1 / 8)%R.
Proof.
  destruct C50_hypotheses as (Hw & Hc & Hr). split.
  - rewrite (C50_normalising_constant DiceL DiceL_laws dice dice_laws (fun _ => tt)) by (try assumption; try reflexivity; constructor).
    cbn. unfold pmass. cbn [lw logp dice DiceL]. cbn [Z.modulo Z.div_eucl Z.pos_div_eucl Z.eqb Z.leb Z.ltb Pos.eqb Z.compare Pos.compare Pos.compare_cont snd].
    vm_compute Z.modulo. cbn [Z.eqb Pos.eqb]. rewrite dice_half, dice_quarter. lra.
  - rewrite (C50_properly_weighted DiceL DiceL_laws dice dice_laws (fun _ => tt)); try assumption; try reflexivity; try constructor.
    + cbn. unfold pmass. cbn [lw logp dice DiceL]. vm_compute Z.modulo. cbn [Z.eqb Pos.eqb]. rewrite dice_half, dice_quarter. lra.
    + intros l l' _ Hp. assert (E : forall l1 l2, Permutation l1 l2 -> forall f : string * Z -> bool, existsb f l1 = existsb f l2).
      { clear. induction 1 as [|x l l' _ IH|x y l|l l' l'' _ IH1 _ IH2]; intros f; cbn; [reflexivity|rewrite IH; reflexivity|destruct (f x), (f y); reflexivity|].
        rewrite IH1. apply IH2. }
      rewrite (E _ _ Hp). reflexivity.
Qed.

(** ** Extend on its own is not properly weighted
    Run outside a Propose, Extend samples its kernel and still multiplies the kernel's density
    into the weight: here nothing is observed, so the target integrates to 1, but the
    expected weight is 3/8. *)
Theorem C50_extend_alone_refuted :
  exists (L : lib) (M : measures L) (p f : inf L) (s : st L),
    lib_laws L /\ measure_laws M /\ clean s /\
    (forall e s', ~ raises (run (IExtend 0%nat p f (mkOpts (fun _ l => Ok l) None VNone false)) VNone []) s e s') /\
    density_sum M (target (IExtend 0%nat p f (mkOpts (fun _ l => Ok l) None VNone false)) VNone []) (fun _ _ => 1%R) = 1%R /\
    expect M (run (IExtend 0%nat p f (mkOpts (fun _ l => Ok l) None VNone false)) VNone [] s) (weighted M (fun _ _ => 1%R)) = (3 / 8)%R.
Proof.
  exists DiceL, dice, (IProg (L := DiceL) 2%nat sig_model dice_q), (IProg (L := DiceL) 3%nat sig_model dice_f), (st0 DiceL).
  split; [exact DiceL_laws|]. split; [exact dice_laws|]. split; [intros i; reflexivity|]. split; [|split].
  - apply quiet_tree_ok. vm_compute. intros. exact I.
  - cbn. unfold pmass. cbn [lw logp dice DiceL]. vm_compute Z.modulo. cbn [Z.eqb Pos.eqb]. rewrite dice_half, dice_quarter. lra.
  - match goal with |- expect _ ?t _ = _ => let u := eval vm_compute in t in change t with u end.
    cbn. unfold weighted, pmass. cbn. rewrite dice_half, dice_quarter.
    lra.
Qed.
Print Assumptions C50_extend_alone_refuted.
