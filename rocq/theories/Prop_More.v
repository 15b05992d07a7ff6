(** Property C92: the more calls are averaged, the tighter the bound on the log-evidence. *)
From Coq Require Import Lra Lia.
From Verif Require Import SpecMore Thm_More Thm_Bound Thm_Proper Thm_Calls Prop_Proper Prop_Bound.
Open Scope nat_scope.

(** Calling a sampler once more and averaging over all calls does not lower, on average, the
    logarithm of the average weight. *)
Theorem C92_one_more : forall (L : lib) (M : measures L) (ML : measure_laws M) (MP : positive_sums M) t c kws s n,
  no_resample t -> clean s -> repeatable t c kws -> 0 < n ->
  (expect M (several n t c kws s) (log_average M) <= expect M (several (S n) t c kws s) (log_average M))%R.
Proof. intros. apply more_calls; assumption. Qed.
Print Assumptions C92_one_more.

(** So it grows with the number of calls, from the average log-weight of a single call up to at
    most the logarithm of the normalising constant of the target, for every number of calls. *)
Theorem C92_tighter : forall (L : lib) (HL : lib_laws L) (M : measures L) (ML : measure_laws M) (MP : positive_sums M) (sp : string -> Sp M)
    t c kws s n m,
  weightable M sp t c kws -> wf_dict kws -> clean s -> clash ["self"; "c"; "fn"] kws = false -> repeatable t c kws ->
  (0 < density_sum M (target t c kws) (fun _ _ => 1))%R ->
  0 < n <= m ->
  (expect M (run t c kws s) (log_weight_of M) <= expect M (several n t c kws s) (log_average M))%R /\
  (expect M (several n t c kws s) (log_average M) <= expect M (several m t c kws s) (log_average M))%R /\
  (expect M (several m t c kws s) (log_average M) <= ln (density_sum M (target t c kws) (fun _ _ => 1)))%R.
Proof.
  intros L HL M ML MP sp t c kws s n m Hw Hk Hs Hc Hrep HZ [Hn Hnm].
  pose proof (weightable_nr M sp t c kws Hw) as Hnr.
  assert (Hup : forall a b, 0 < a -> a <= b -> (expect M (several a t c kws s) (log_average M) <= expect M (several b t c kws s) (log_average M))%R).
  { intros a b Ha Hab. induction Hab as [|b Hab IH]; [lra|]. eapply Rle_trans; [exact IH|]. apply C92_one_more; try assumption. lia. }
  split; [|split].
  - eapply Rle_trans; [|apply (Hup 1 n); lia]. right.
    cbn [several]. unfold mbind at 1. rewrite (E_tbind M ML). apply (Thm_More.E_ext_out M MP). intros [r s'] Ho.
    destruct (Hrep s r s' Hs Ho) as [[o ->] _]. cbn. unfold log_weight_of, log_average. cbn. unfold Rdiv. rewrite Rplus_0_r, Rinv_1, Rmult_1_r. symmetry. apply ln_exp.
  - apply Hup; assumption.
  - assert (EZ : expect M (run t c kws s) (weighted M (fun _ _ => 1%R)) = density_sum M (target t c kws) (fun _ _ => 1%R)).
    { eapply properly_weighted_spec; try eassumption; [|intros; reflexivity].
      intros e s' Ho. destruct (Hrep s _ s' Hs Ho) as [[o Ho'] _]. discriminate. }
    rewrite <- EZ in HZ |- *. apply calls_below; try assumption. lia.
Qed.
Print Assumptions C92_tighter.

(** The dice of C50: Propose(Extend(p, f), Compose(k, q)), with a normalising constant of 5/16. *)
Fixpoint keeps_tree {L : lib} {A} (d : dict (pyval (T L))) (t : stree L (res A * st L)) : Prop :=
  match t with
  | Leaf (Ok _, s) => store s = d
  | Leaf (Err _, _) => False
  | Draw _ k => forall v, keeps_tree d (k v)
  end.
Lemma keeps_tree_ok {L : lib} {A} d (t : stree L (res A * st L)) r s' : keeps_tree d t -> outcome t (r, s') -> (exists a, r = Ok a) /\ store s' = d.
Proof.
  intros H Ho. remember (r, s') as x eqn:E. revert H. induction Ho as [y|d' k v y Ho IH]; subst; cbn; [|intros H; apply IH; auto].
  destruct r; [|tauto]. intros H. split; [eexists; reflexivity|exact H].
Qed.
Lemma same_keeps {L : lib} {A} d (t u : stree L (res A * st L)) : same_draws same_end t u -> keeps_tree d u -> keeps_tree d t.
Proof.
  induction 1 as [[a s] [b s'] [H1 H2]|d' k k' H IH]; cbn in *; [|intros Hk v; apply IH, Hk].
  subst b. destruct a; [|tauto]. intros <-. exact H2.
Qed.
Lemma dice_repeatable : repeatable (L := DiceL) dice_t VNone [].
Proof.
  intros s r s' Hs Ho. apply (keeps_tree_ok (store s) _ _ _) in Ho; [exact Ho|].
  eapply same_keeps; [apply (session_fresh s s), session_nil; exact Hs|].
  destruct s as [cs d h l]. cbn [store hook]. vm_compute. intros. reflexivity.
Qed.
Example C92_case : forall n m, 0 < n <= m ->
  (expect dice (run (L := DiceL) dice_t VNone [] (st0 DiceL)) (log_weight_of dice) <= expect dice (several (L := DiceL) n dice_t VNone [] (st0 DiceL)) (log_average dice))%R /\
  (expect dice (several (L := DiceL) n dice_t VNone [] (st0 DiceL)) (log_average dice) <= expect dice (several (L := DiceL) m dice_t VNone [] (st0 DiceL)) (log_average dice))%R /\
  (expect dice (several (L := DiceL) m dice_t VNone [] (st0 DiceL)) (log_average dice) <= ln (5 / 16))%R.
Proof.
  intros n m H. destruct C50_hypotheses as (Hw & Hc & Hr).
  assert (E : density_sum dice (target (L := DiceL) dice_t VNone []) (fun _ _ => 1%R) = (5 / 16)%R).
  { rewrite <- (C50_normalising_constant DiceL DiceL_laws dice dice_laws (fun _ => tt) dice_t VNone [] (st0 DiceL)) by (try assumption; try reflexivity; constructor).
    apply C50_case. }
  rewrite <- E. apply (C92_tighter DiceL DiceL_laws dice dice_laws dice_positive (fun _ => tt)); try assumption; try reflexivity; [constructor|exact dice_repeatable|].
  rewrite E. lra.
Qed.
