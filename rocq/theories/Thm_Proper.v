(** Proof of proper weighting (C50). *)
From Verif Require Import SpecProper.
From Coq Require Import Lra.

Section Proper.
  Context {L : lib} (HL : lib_laws L) (M : measures L) (ML : measure_laws M).
  Notation T := (T L). Notation pyval := (pyval T). Notation model := (model L). Notation trace := (trace L).
  Notation pm := (pmass M). Notation ew x := (exp (lw M x)).
  Notation E := (expect M). Notation int := (integral M).
  Variable sp : string -> Sp M.

  (** *** Expectations *)
  Lemma E_ext_out {A} (t : stree L A) f g : (forall a, outcome t a -> f a = g a) -> E t f = E t g.
  Proof.
    induction t as [a|[d rep sh|] k IH]; intros H; cbn [expect].
    - apply H. constructor.
    - apply (int_ext M ML). intros v. rewrite (IH v); [reflexivity|]. intros a Ha. apply H. econstructor. exact Ha.
    - reflexivity.
  Qed.
  Lemma E_tbind {A B} (t : stree L A) (k : A -> stree L B) f : E (tbind t k) f = E t (fun a => E (k a) f).
  Proof.
    induction t as [a|[d rep sh|] k' IH]; cbn [expect tbind]; [reflexivity| |reflexivity].
    apply (int_ext M ML). intros v. rewrite IH. reflexivity.
  Qed.
  Lemma E_teq {A} (t t' : stree L A) f : teq t t' -> E t f = E t' f.
  Proof.
    induction 1 as [a b ->|[d rep sh|] k k' H IH]; cbn [expect]; [reflexivity| |reflexivity].
    apply (int_ext M ML). intros v. rewrite IH. reflexivity.
  Qed.
  Lemma teq_outcome {A} (t t' : stree L A) a : teq t t' -> outcome t a -> outcome t' a.
  Proof. intros H Ha. apply outcome_path in Ha. destruct Ha as [ds Ha]. eapply path_outcome, teq_path; eassumption. Qed.
  Lemma E_scale {A} (t : stree L A) c f : E t (fun a => (c * f a)%R) = (c * E t f)%R.
  Proof.
    induction t as [a|[d rep sh|] k IH]; cbn [expect]; [reflexivity| |ring].
    rewrite <- (int_scale M ML). apply (int_ext M ML). intros v. rewrite IH. ring.
  Qed.

  (** *** Weighted sums over the executions of a model, some variables substituted
      A node is (observed?, value, log-density). *)
  Definition node := (bool * T * T)%type.
  Definition nodes := list (string * node).
  Definition view (tr : trace) : nodes :=
    map (fun ar => (fst ar, (is_observed (snd ar), rv_value (snd ar), rv_logp (snd ar)))) tr.

  Fixpoint WC (sub : string -> option T) (m : model) (F : nodes -> pyval -> R) : R :=
    match m with
    | MRet o => F [] o
    | MVar a d None _ k =>
        match sub a with
        | Some v => (pm d v * WC sub (k v) (fun n o => F ((a, (false, v, logp L d v)) :: n) o))%R
        | None => int (space M d) (fun v => (pm d v * WC sub (k v) (fun n o => F ((a, (false, v, logp L d v)) :: n) o))%R)
        end
    | MVar a d (Some (v, _)) _ k => (pm d v * WC sub (k v) (fun n o => F ((a, (true, v, logp L d v)) :: n) o))%R
    | _ => 0%R
    end.
  Definition none : string -> option T := fun _ => None.

  (** the nodes and results a model can produce *)
  Inductive produces : model -> nodes -> pyval -> Prop :=
  | pr_ret o : produces (MRet o) [] o
  | pr_smp a d rep k v n o : produces (k v) n o -> produces (MVar a d None rep k) ((a, (false, v, logp L d v)) :: n) o
  | pr_obs a d v p rep k n o : produces (k v) n o -> produces (MVar a d (Some (v, p)) rep k) ((a, (true, v, logp L d v)) :: n) o.

  Lemma WC_ext_on sub m : forall F G, (forall n o, produces m n o -> F n o = G n o) -> WC sub m F = WC sub m G.
  Proof.
    induction m as [o|e|a d value rep k IH|a r0 k IH|k IH|k IH|d rep shape k IH|key k IH|key v k IH]; intros F G H; cbn [WC]; try reflexivity.
    - apply H. constructor.
    - destruct value as [[v p]|].
      + f_equal. apply IH. intros n o Hn. apply H. constructor. exact Hn.
      + assert (Hv : forall v, WC sub (k v) (fun n o => F ((a, (false, v, logp L d v)) :: n) o)
                       = WC sub (k v) (fun n o => G ((a, (false, v, logp L d v)) :: n) o)).
        { intros v. apply IH. intros n o Hn. apply H. constructor. exact Hn. }
        destruct (sub a) as [v|]; [rewrite Hv; reflexivity|]. apply (int_ext M ML). intros v. rewrite Hv. reflexivity.
  Qed.
  Lemma WC_ext sub m F G : (forall n o, F n o = G n o) -> WC sub m F = WC sub m G.
  Proof. intros H. apply WC_ext_on. intros n o _. apply H. Qed.
  Lemma WC_sub m : forall sub sub' F, (forall a, samples m a -> sub a = sub' a) -> WC sub m F = WC sub' m F.
  Proof.
    induction m as [o|e|a d value rep k IH|a r0 k IH|k IH|k IH|d rep shape k IH|key k IH|key v k IH]; intros sub sub' F H; cbn [WC]; try reflexivity.
    assert (Hv : forall v G, WC sub (k v) G = WC sub' (k v) G).
    { intros v G. apply IH. intros b Hb. apply H. econstructor. exact Hb. }
    destruct value as [[v p]|]; [rewrite Hv; reflexivity|].
    rewrite (H a) by constructor. destruct (sub' a) as [v|]; [rewrite Hv; reflexivity|].
    apply (int_ext M ML). intros v. rewrite Hv. reflexivity.
  Qed.
  Lemma WC_scale sub c m : forall F, WC sub m (fun n o => (c * F n o)%R) = (c * WC sub m F)%R.
  Proof.
    induction m as [o|e|a d value rep k IH|a r0 k IH|k IH|k IH|d rep shape k IH|key k IH|key v k IH]; intros F; cbn [WC]; try ring.
    destruct value as [[v p]|]; [rewrite (IH v (fun n o => F ((a, (true, v, logp L d v)) :: n) o)); ring|].
    destruct (sub a) as [v|]; [rewrite (IH v (fun n o => F ((a, (false, v, logp L d v)) :: n) o)); ring|].
    rewrite <- (int_scale M ML). apply (int_ext M ML). intros v. rewrite (IH v (fun n o => F ((a, (false, v, logp L d v)) :: n) o)). ring.
  Qed.
  Lemma WC_mseq sub m f : forall F,
    WC sub (mseq m f) F = WC sub m (fun n o => WC sub (f o) (fun n' o' => F (n ++ n') o')).
  Proof.
    induction m as [o|e|a d value rep k IH|a r0 k IH|k IH|k IH|d rep shape k IH|key k IH|key v k IH]; intros F; cbn [WC mseq]; try reflexivity.
    destruct value as [[v p]|]; [rewrite IH; reflexivity|].
    destruct (sub a) as [v|]; [rewrite IH; reflexivity|].
    apply (int_ext M ML). intros v. rewrite IH. reflexivity.
  Qed.
  Lemma produces_mseq m f n o : produces (mseq m f) n o -> exists n1 o1 n2, produces m n1 o1 /\ produces (f o1) n2 o /\ n = n1 ++ n2.
  Proof.
    revert n. induction m as [o'|e|a d value rep k IH|a r0 k IH|k IH|k IH|d rep shape k IH|key k IH|key v k IH]; intros n H; cbn [mseq] in H.
    - exists [], o', n. split; [constructor|]. split; [exact H|reflexivity].
    - inversion H.
    - inversion H; subst.
      + match goal with H0 : produces (mseq _ _) _ _ |- _ => destruct (IH _ _ H0) as (n1 & o1 & n2 & H1 & H2 & ->) end.
        exists ((a, (false, v, logp L d v)) :: n1), o1, n2. split; [constructor; exact H1|]. split; [exact H2|reflexivity].
      + match goal with H0 : produces (mseq _ _) _ _ |- _ => destruct (IH _ _ H0) as (n1 & o1 & n2 & H1 & H2 & ->) end.
        exists ((a, (true, v, logp L d v)) :: n1), o1, n2. split; [constructor; exact H1|]. split; [exact H2|reflexivity].
    - inversion H. - inversion H. - inversion H. - inversion H. - inversion H. - inversion H.
  Qed.
  Lemma produces_value m n o : produces m n o -> returns_value m o.
  Proof. induction 1; econstructor; eassumption. Qed.
  Lemma produces_latent m n o : produces m n o -> forall a v l, In (a, (false, v, l)) n -> samples m a.
  Proof.
    induction 1 as [o|a d rep k v n o H IH|a d v p rep k n o H IH]; intros b w l Hin; cbn in Hin.
    - tauto.
    - destruct Hin as [[= -> -> <-]|Hin]; [constructor|]. econstructor. eapply IH, Hin.
    - destruct Hin as [Hin|Hin]; [discriminate|]. econstructor. eapply IH, Hin.
  Qed.
  Lemma produces_any m n o : produces m n o -> forall a x, In (a, x) n -> samples m a \/ observes m a.
  Proof.
    induction 1 as [o|a d rep k v n o H IH|a d v p rep k n o H IH]; intros b x Hin; cbn in Hin.
    - tauto.
    - destruct Hin as [[= -> _]|Hin]; [left; constructor|]. destruct (IH _ _ Hin); [left|right]; econstructor; eassumption.
    - destruct Hin as [[= -> _]|Hin]; [right; constructor|]. destruct (IH _ _ Hin); [left|right]; econstructor; eassumption.
  Qed.
  Lemma produces_always C left (m : model) n o : produces m n o -> always_samples C left m ->
    forall a, In a left -> exists v l, In (a, (false, v, l)) n.
  Proof.
    intros H. revert left. induction H as [o|a d rep k v n o H IH|a d v p rep k n o H IH]; intros left Ha b Hb.
    - inversion Ha; subst. contradiction.
    - inversion Ha; subst.
      + match goal with Hp : Permutation _ _ |- _ => apply (Permutation_in _ Hp) in Hb end.
        destruct Hb as [->|Hb]; [eexists _, _; left; reflexivity|].
        match goal with H0 : forall v, always_samples C _ (k v) |- _ => destruct (IH _ (H0 v) _ Hb) as (w & l & Hin) end.
        exists w, l. right. exact Hin.
      + match goal with H0 : forall v, always_samples C _ (k v) |- _ => destruct (IH _ (H0 v) _ Hb) as (w & l & Hin) end.
        exists w, l. right. exact Hin.
    - inversion Ha; subst.
      match goal with H0 : forall v, always_samples C _ (k v) |- _ => destruct (IH _ (H0 v) _ Hb) as (w & l & Hin) end.
      exists w, l. right. exact Hin.
  Qed.
  Lemma always_samples_In C left (m : model) a : always_samples C left m -> samples m a -> In a left \/ ~ In a C.
  Proof.
    intros H. revert a. induction H as [o|a d rep k left left' Hp H IH|a d v rep k left Hn H IH]; intros b Hb; inversion Hb; subst.
    - left. eapply Permutation_in; [apply Permutation_sym; exact Hp|]. left. reflexivity.
    - match goal with H0 : samples (k _) b |- _ => destruct (IH _ _ H0) as [Hi|Hi]; [|right; exact Hi] end.
      left. eapply Permutation_in; [apply Permutation_sym; exact Hp|]. right. exact Hi.
    - right. exact Hn.
    - match goal with H0 : samples (k _) b |- _ => destruct (IH _ _ H0) as [Hi|Hi]; [left|right]; exact Hi end.
  Qed.

  Lemma always_samples_no_obs C left (m : model) a : always_samples C left m -> observes m a -> ~ In a C.
  Proof.
    intros H. revert a. induction H as [o|a d rep k left left' Hp H IH|a d v rep k left Hn H IH]; intros b Hb; inversion Hb; subst; eauto.
  Qed.

  (** a model without observations, nothing substituted, has total mass 1 *)
  Lemma WC_mass m c : pure M sp m -> (forall a, ~ observes m a) -> WC none m (fun _ _ => c) = c.
  Proof.
    induction 1 as [o|a d rep k Hs Hk IH|a d v rep k Hk IH]; intros Ho; cbn [WC none].
    - reflexivity.
    - rewrite (int_ext M ML _ _ (fun v => (c * pm d v)%R)).
      + rewrite (int_scale M ML). unfold pmass. rewrite (normalised M ML). ring.
      + intros v. rewrite IH; [ring|]. intros b Hb. apply (Ho b). econstructor. exact Hb.
    - exfalso. apply (Ho a). constructor.
  Qed.

  (** *** Iterated sums over the values of a list of addresses *)
  Definition upd (a : string) (v : T) (x : string -> option T) : string -> option T :=
    fun b => if String.eqb b a then Some v else x b.
  Fixpoint Int (C : list string) (f : (string -> option T) -> R) : R :=
    match C with
    | [] => f none
    | a :: C' => int (sp a) (fun v => Int C' (fun x => f (upd a v x)))
    end.
  Lemma Int_ext C : forall f g, (forall x, (forall a, x a <> None <-> In a C) -> f x = g x) -> Int C f = Int C g.
  Proof.
    induction C as [|a C IH]; intros f g H; cbn [Int].
    - apply H. intros a. cbn. unfold none. intuition congruence.
    - apply (int_ext M ML). intros v. apply IH. intros x Hx. apply H. intros b. unfold upd.
      destruct (String.eqb_spec b a) as [->|Hne]; cbn.
      + split; [auto|discriminate].
      + rewrite Hx. split; [auto|]. intros [->|Hb]; [contradiction|exact Hb].
  Qed.
  Lemma Int_scale C c : forall f, Int C (fun x => (c * f x)%R) = (c * Int C f)%R.
  Proof.
    induction C as [|a C IH]; intros f; cbn [Int]; [reflexivity|].
    rewrite <- (int_scale M ML). apply (int_ext M ML). intros v. rewrite (IH (fun x => f (upd a v x))). reflexivity.
  Qed.
  Lemma Int_int C k : forall (f : (string -> option T) -> T -> R),
    Int C (fun x => int k (fun v => f x v)) = int k (fun v => Int C (fun x => f x v)).
  Proof.
    induction C as [|a C IH]; intros f; cbn [Int]; [reflexivity|].
    rewrite (int_ext M ML _ _ (fun v => int k (fun w => Int C (fun x => f (upd a v x) w)))).
    2:{ intros v. apply (IH (fun x w => f (upd a v x) w)). }
    apply (int_swap M ML).
  Qed.
  Definition fext (f : (string -> option T) -> R) : Prop := forall x y, (forall a, x a = y a) -> f x = f y.
  Lemma Int_perm C C' : Permutation C C' -> NoDup C -> forall f, fext f -> Int C f = Int C' f.
  Proof.
    induction 1 as [|a C C' Hp IH|a b C|C C' C'' H1 IH1 H2 IH2]; intros Hn f Hf; cbn [Int].
    - reflexivity.
    - apply (int_ext M ML). intros v. apply IH; [inversion Hn; assumption|]. intros x y Hxy. apply Hf.
      intros c. unfold upd. destruct (String.eqb c a); [reflexivity|apply Hxy].
    - rewrite (int_swap M ML). apply (int_ext M ML). intros v. apply (int_ext M ML). intros w. apply Int_ext. intros x _.
      apply Hf. intros c. unfold upd. inversion Hn as [|? ? Hb _]; subst.
      destruct (String.eqb_spec c a) as [->|Ha]; destruct (String.eqb_spec a b) as [E|Hb']; try reflexivity.
      exfalso. apply Hb. left. exact E.
    - rewrite IH1 by assumption. apply IH2; [eapply Permutation_NoDup; eassumption|exact Hf].
  Qed.

  (** summing the substituted run over all substitutions gives the sum over all executions *)
  Lemma Int_WC C0 C m : always_samples C0 C m -> pure M sp m -> NoDup C -> (forall a, In a C -> In a C0) ->
    forall F, Int C (fun x => WC x m F) = WC none m F.
  Proof.
    induction 1 as [o|a d rep k left left' Hp H IH|a d v rep k left Hn H IH]; intros Hpure Hnd Hsub F.
    - cbn. reflexivity.
    - assert (Hnd' : NoDup (a :: left')) by (eapply Permutation_NoDup; eassumption).
      rewrite (Int_perm _ _ Hp Hnd). 2:{ intros x y Hxy. apply WC_sub. intros b _. apply Hxy. }
      inversion Hpure as [|a' d' rep' k' Hs Hk|]; subst.
      cbn [Int WC]. change (none a) with (@None T). cbv beta. rewrite Hs. apply (int_ext M ML). intros v.
      assert (Ha0 : In a C0) by (apply Hsub; eapply Permutation_in; [apply Permutation_sym; exact Hp|left; reflexivity]).
      rewrite <- (IH v (Hk v)).
      + rewrite <- Int_scale. apply Int_ext. intros x Hx.
        assert (E1 : upd a v x a = Some v) by (unfold upd; rewrite String.eqb_refl; reflexivity). rewrite E1.
        f_equal. apply WC_sub. intros b Hb. unfold upd. destruct (String.eqb_spec b a) as [->|Hne]; [|reflexivity].
        destruct (always_samples_In _ _ _ _ (H v) Hb) as [Hi|Hi]; [|contradiction].
        inversion Hnd'; contradiction.
      + inversion Hnd'; assumption.
      + intros b Hb. apply Hsub. eapply Permutation_in; [apply Permutation_sym; exact Hp|right; exact Hb].
    - destruct v as [[v p]|].
      + inversion Hpure as [| |a' d' v' rep' k' Hk]; subst. cbn [WC].
        rewrite (Int_scale left (pm d v) (fun x => WC x (k v) (fun n o => F ((a, (true, v, logp L d v)) :: n) o))).
        rewrite (IH v (Hk v) Hnd Hsub). reflexivity.
      + inversion Hpure as [|a' d' rep' k' Hs Hk|]; subst. cbn [WC]. change (none a) with (@None T). cbv beta.
        rewrite (Int_ext left _ (fun x => int (space M d) (fun v => (pm d v * WC x (k v) (fun n o => F ((a, (false, v, logp L d v)) :: n) o))%R))).
        * rewrite (Int_int left _ (fun x v => (pm d v * WC x (k v) (fun n o => F ((a, (false, v, logp L d v)) :: n) o))%R)).
          apply (int_ext M ML). intros v.
          rewrite (Int_scale left (pm d v) (fun x => WC x (k v) (fun n o => F ((a, (false, v, logp L d v)) :: n) o))).
          rewrite (IH v (Hk v) Hnd Hsub). reflexivity.
        * intros x Hx. destruct (x a) as [w|] eqn:E; [|reflexivity]. exfalso. apply Hn, Hsub, Hx. congruence.
  Qed.

  (** the density of the nodes that are observed or among [C] *)
  Fixpoint lu (C : string -> bool) (n : nodes) : R :=
    match n with
    | [] => 1%R
    | (a, (ob, _, l)) :: n' => ((if (ob : bool) || C a then ew l else 1) * lu C n')%R
    end.
  Lemma lu_pos C n : (0 < lu C n)%R.
  Proof.
    induction n as [|[a [[ob v] l]] n IH]; cbn [lu]; [lra|]. apply Rmult_lt_0_compat; [|exact IH].
    destruct (ob || C a); [apply exp_pos|lra].
  Qed.
  Lemma lu_perm C n n' : Permutation n n' -> lu C n = lu C n'.
  Proof.
    induction 1 as [|[a [[ob v] l]] n n' H IH|[a [[ob v] l]] [b [[ob' v'] l']] n|n n' n'' H1 IH1 H2 IH2]; cbn [lu].
    - reflexivity.
    - rewrite IH. reflexivity.
    - ring.
    - congruence.
  Qed.
  Lemma lu_ext C C' n : (forall a v l, In (a, (false, v, l)) n -> C a = C' a) -> lu C n = lu C' n.
  Proof.
    induction n as [|[a [[ob v] l]] n IH]; intros H; cbn [lu]; [reflexivity|].
    rewrite IH by (intros b w l' Hin; eapply H; right; exact Hin). f_equal.
    destruct ob; cbn [orb]; [reflexivity|]. rewrite (H a v l) by (left; reflexivity). reflexivity.
  Qed.
  Lemma lu_app C n n' : lu C (n ++ n') = (lu C n * lu C n')%R.
  Proof. induction n as [|[a [[ob v] l]] n IH]; cbn [lu app]; [ring|]. rewrite IH. ring. Qed.

  (** the values of the addresses [C] *)
  Definition shared (C : list string) (n : nodes) : string -> option T :=
    fun a => if mem a C then match filter (fun an => String.eqb a (fst an)) n with
                             | [(_, x)] => Some (snd (fst x))
                             | _ => None
                             end else None.
  Lemma shared_perm C n n' a : Permutation n n' -> shared C n a = shared C n' a.
  Proof.
    intros H. unfold shared. destruct (mem a C); [|reflexivity].
    assert (Hf : Permutation (filter (fun an : string * node => String.eqb a (fst an)) n) (filter (fun an => String.eqb a (fst an)) n')).
    { clear -H. induction H as [|x n n' H IH|x y n|n n' n'' H1 IH1 H2 IH2]; cbn [filter].
      - constructor.
      - destruct (String.eqb a (fst x)); [constructor|]; exact IH.
      - destruct (String.eqb a (fst x)), (String.eqb a (fst y)); try apply Permutation_refl. constructor.
      - eapply Permutation_trans; eassumption. }
    set (f := filter _ n) in *. set (f' := filter _ n') in *. clearbody f f'.
    destruct f as [|[b x] [|y f]].
    - apply Permutation_nil in Hf. rewrite Hf. reflexivity.
    - apply Permutation_length_1_inv in Hf. rewrite Hf. reflexivity.
    - destruct f' as [|[b' x'] [|y' f']]; [reflexivity| |reflexivity].
      apply Permutation_sym, Permutation_length_1_inv in Hf. discriminate.
  Qed.
  Lemma shared_dget C (n : nodes) a : NoDup (map fst n) ->
    shared C n a = if mem a C then option_map (fun x : node => snd (fst x)) (dget a n) else None.
  Proof.
    intros Hn. unfold shared. destruct (mem a C); [|reflexivity].
    induction n as [|[b x] n IH]; cbn [filter dget fst map] in *; [reflexivity|].
    inversion Hn as [|? ? Hb Hn']; subst. destruct (String.eqb_spec a b) as [->|Hne]; [|apply IH, Hn'].
    assert (E : filter (fun an : string * node => String.eqb b (fst an)) n = []).
    { clear -Hb. induction n as [|[c y] n IH]; cbn [filter fst map] in *; [reflexivity|].
      destruct (String.eqb_spec b c) as [->|Hne]; [exfalso; apply Hb; left; reflexivity|].
      apply IH. intros Hi. apply Hb. right. exact Hi. }
    rewrite E. reflexivity.
  Qed.
  Lemma filter_absent (n : nodes) a : (forall x, ~ In (a, x) n) -> filter (fun an => String.eqb a (fst an)) n = [].
  Proof.
    induction n as [|[b y] n IH]; intros H; cbn [filter fst]; [reflexivity|].
    destruct (String.eqb_spec a b) as [->|Hne]; [exfalso; apply (H y); left; reflexivity|].
    apply IH. intros x Hx. apply (H x). right. exact Hx.
  Qed.

  (** dividing out the density of the observed and shared nodes, and summing over all
      executions, leaves the plain sum over the shared values *)
  Lemma WC_divide C0 C m : always_samples C0 C m -> pure M sp m -> NoDup C -> (forall a, In a C -> In a C0) ->
    forall G, fext G ->
    WC none m (fun n _ => (/ lu (fun a => mem a C0) n * G (shared C0 n))%R) = Int C G.
  Proof.
    induction 1 as [o|a d rep k left left' Hp H IH|a d v rep k left Hn H IH]; intros Hpure Hnd Hsub G HG.
    - cbn. rewrite Rinv_1, Rmult_1_l. apply HG. intros a. unfold shared, none. destruct (mem a C0); reflexivity.
    - assert (Hnd' : NoDup (a :: left')) by (eapply Permutation_NoDup; eassumption).
      rewrite (Int_perm _ _ Hp Hnd) by exact HG.
      inversion Hpure as [|a' d' rep' k' Hs Hk|]; subst.
      assert (Ha0 : In a C0) by (apply Hsub; eapply Permutation_in; [apply Permutation_sym; exact Hp|left; reflexivity]).
      cbn [Int WC]. change (none a) with (@None T). cbv beta. rewrite Hs. apply (int_ext M ML). intros v.
      rewrite <- (IH v (Hk v)).
      + rewrite <- WC_scale. apply WC_ext_on. intros n o Hprod. cbn [lu].
        assert (Hab : forall x, ~ In (a, x) n).
        { intros x Hin. destruct (produces_any _ _ _ Hprod _ _ Hin) as [Hi|Hi].
          - destruct (always_samples_In _ _ _ _ (H v) Hi) as [Hi'|Hi']; [inversion Hnd'|]; contradiction.
          - exact (always_samples_no_obs _ _ _ _ (H v) Hi Ha0). }
        apply mem_In in Ha0. rewrite Ha0, orb_true_r.
        rewrite (HG (shared C0 ((a, (false, v, logp L d v)) :: n)) (upd a v (shared C0 n))).
        * unfold pmass. rewrite Rinv_mult. pose proof (exp_pos (lw M (logp L d v))). field.
          split; [apply Rgt_not_eq, lu_pos|lra].
        * intros b. unfold shared, upd. cbn [filter fst]. destruct (String.eqb_spec b a) as [->|Hne]; [|reflexivity].
          rewrite Ha0, filter_absent by exact Hab. reflexivity.
      + inversion Hnd'; assumption.
      + intros b Hb. apply Hsub. eapply Permutation_in; [apply Permutation_sym; exact Hp|right; exact Hb].
      + intros x y Hxy. apply HG. intros b. unfold upd. destruct (String.eqb b a); [reflexivity|apply Hxy].
    - assert (Hm : mem a C0 = false) by (apply mem_not_In; exact Hn).
      assert (Hsh : forall nd n, G (shared C0 ((a, nd) :: n)) = G (shared C0 n)).
      { intros nd n. apply HG. intros b. unfold shared. cbn [filter fst]. destruct (String.eqb_spec b a) as [->|Hne]; [rewrite Hm|]; reflexivity. }
      destruct v as [[v p]|].
      + inversion Hpure as [| |a' d' v' rep' k' Hk]; subst. cbn [WC].
        rewrite <- (IH v (Hk v) Hnd Hsub G HG). rewrite <- WC_scale. apply WC_ext. intros n o. cbn [lu orb].
        rewrite Hsh. unfold pmass. rewrite Rinv_mult. pose proof (exp_pos (lw M (logp L d v))). field.
        split; [apply Rgt_not_eq, lu_pos|lra].
      + inversion Hpure as [|a' d' rep' k' Hs Hk|]; subst. cbn [WC]. change (none a) with (@None T). cbv beta.
        rewrite (int_ext M ML _ _ (fun v => (Int left G * pm d v)%R)).
        * rewrite (int_scale M ML). unfold pmass. rewrite (normalised M ML). ring.
        * intros v. rewrite <- (IH v (Hk v) Hnd Hsub G HG).
          rewrite Rmult_comm. f_equal. apply WC_ext. intros n o. cbn [lu orb]. rewrite Hm, Hsh, Rmult_1_l. reflexivity.
  Qed.

  Lemma samples_mseq_l (m : model) f a : samples m a -> samples (mseq m f) a.
  Proof. induction 1; cbn [mseq]; econstructor; eassumption. Qed.
  Lemma samples_mseq_r (m : model) f o a : returns_value m o -> samples (f o) a -> samples (mseq m f) a.
  Proof. induction 1; cbn [mseq]; intros H'; [exact H'|]. econstructor. auto. Qed.
  Lemma WC2_sub m f sub sub' (F : nodes -> pyval -> nodes -> pyval -> R) : (forall a, samples (mseq m f) a -> sub a = sub' a) ->
    WC sub m (fun n o => WC sub (f o) (F n o)) = WC sub' m (fun n o => WC sub' (f o) (F n o)).
  Proof.
    intros H. rewrite (WC_sub m sub sub') by (intros a Ha; apply H, samples_mseq_l, Ha).
    apply WC_ext_on. intros n o Hp. apply WC_sub. intros a Ha. apply H. eapply samples_mseq_r; [eapply produces_value, Hp|exact Ha].
  Qed.

  (** the same for a model followed by another one *)
  Lemma Int_WC2 C0 m f : forall C, always_samples C0 C (mseq m f) -> pure M sp m ->
    (forall o, returns_value m o -> pure M sp (f o)) -> NoDup C -> (forall a, In a C -> In a C0) ->
    forall F, Int C (fun x => WC x m (fun n o => WC x (f o) (F n o))) = WC none m (fun n o => WC none (f o) (F n o)).
  Proof.
    induction m as [o|e|a d value rep k IH|a r0 k IH|k IH|k IH|d rep shape k IH|key k IH|key v k IH];
      intros C H Hpure Hpf Hnd Hsub F; try (inversion Hpure; fail); cbn [mseq] in H.
    - cbn [WC]. apply (Int_WC C0); try assumption. apply Hpf. constructor.
    - inversion H as [|a' d' rep' k' left left' Hp Hk0|a' d' v' rep' k' left Hn Hk0]; subst.
      + assert (Hnd' : NoDup (a :: left')) by (eapply Permutation_NoDup; eassumption).
        rewrite (Int_perm _ _ Hp Hnd).
        2:{ intros x y Hxy. rewrite (WC_sub _ x y) by (intros b _; apply Hxy). apply WC_ext. intros n o. apply WC_sub. intros b _. apply Hxy. }
        inversion Hpure as [|a' d' rep' k' Hs Hk|]; subst.
        cbn [Int WC]. change (none a) with (@None T). cbv beta. rewrite Hs. apply (int_ext M ML). intros v.
        assert (Ha0 : In a C0) by (apply Hsub; eapply Permutation_in; [apply Permutation_sym; exact Hp|left; reflexivity]).
        rewrite <- (IH v left' (Hk0 v) (Hk v)) with (F := fun n o => F ((a, (false, v, logp L d v)) :: n) o).
        * rewrite <- Int_scale. apply Int_ext. intros x Hx.
          assert (E1 : upd a v x a = Some v) by (unfold upd; rewrite String.eqb_refl; reflexivity). rewrite E1.
          f_equal.
          assert (Hno : forall b, samples (mseq (k v) f) b -> upd a v x b = x b).
          { intros b Hb. unfold upd. destruct (String.eqb_spec b a) as [->|Hne]; [|reflexivity].
            destruct (always_samples_In _ _ _ _ (Hk0 v) Hb) as [Hi|Hi]; [|contradiction].
            inversion Hnd'; contradiction. }
          apply (WC2_sub (k v) f _ _ (fun n o => F ((a, (false, v, logp L d v)) :: n) o)). exact Hno.
        * intros o Ho. apply Hpf. econstructor. exact Ho.
        * inversion Hnd'; assumption.
        * intros b Hb. apply Hsub. eapply Permutation_in; [apply Permutation_sym; exact Hp|right; exact Hb].
      + assert (Hpf' : forall v o, returns_value (k v) o -> pure M sp (f o)) by (intros v o Ho; apply Hpf; econstructor; exact Ho).
        destruct value as [[v p]|].
        * inversion Hpure as [| |a' d' v' rep' k' Hk]; subst. cbn [WC].
          rewrite (Int_scale C (pm d v) (fun x => WC x (k v) (fun n o => WC x (f o) (F ((a, (true, v, logp L d v)) :: n) o)))).
          rewrite (IH v C (Hk0 v) (Hk v) (Hpf' v) Hnd Hsub (fun n o => F ((a, (true, v, logp L d v)) :: n) o)). reflexivity.
        * inversion Hpure as [|a' d' rep' k' Hs Hk|]; subst. cbn [WC]. change (none a) with (@None T). cbv beta.
          rewrite (Int_ext C _ (fun x => int (space M d) (fun v => (pm d v * WC x (k v) (fun n o => WC x (f o) (F ((a, (false, v, logp L d v)) :: n) o)))%R))).
          -- rewrite (Int_int C _ (fun x v => (pm d v * WC x (k v) (fun n o => WC x (f o) (F ((a, (false, v, logp L d v)) :: n) o)))%R)).
             apply (int_ext M ML). intros v.
             rewrite (Int_scale C (pm d v) (fun x => WC x (k v) (fun n o => WC x (f o) (F ((a, (false, v, logp L d v)) :: n) o)))).
             rewrite (IH v C (Hk0 v) (Hk v) (Hpf' v) Hnd Hsub (fun n o => F ((a, (false, v, logp L d v)) :: n) o)). reflexivity.
          -- intros x Hx. destruct (x a) as [w|] eqn:E; [|reflexivity]. exfalso. apply Hn, Hsub, Hx. congruence.
  Qed.

  (** *** Running a model *)
  Lemma view_app (t t' : trace) : view (t ++ t') = view t ++ view t'.
  Proof. apply map_app. Qed.
  Lemma view_keys (t : trace) : map fst (view t) = dkeys t.
  Proof. unfold view, dkeys. rewrite map_map. reflexivity. Qed.
  Lemma view_dget (t : trace) a :
    dget a (view t) = option_map (fun r => (is_observed r, rv_value r, rv_logp r)) (dget a t).
  Proof. induction t as [|[b r] t IH]; cbn; [reflexivity|]. destruct (String.eqb a b); [reflexivity|exact IH]. Qed.
  Lemma ew_logp_sum sd bd (C : string -> bool) (t : trace) :
    ew (logp_sum sd bd (fun a r => is_observed r || C a) t) = lu C (view t).
  Proof.
    unfold logp_sum. induction t as [|[a r] t IH]; cbn [filter map fst snd view lu].
    - unfold tsum. cbn. rewrite (lw_zero M ML). apply exp_0.
    - destruct (is_observed r || C a); cbn [map snd].
      + rewrite tsum_cons, (lw_add M ML), exp_plus, (lw_bsum M ML). f_equal. exact IH.
      + rewrite Rmult_1_l. exact IH.
  Qed.

  Definition quiet {A} (t : stree L (res A * st L)) : Prop := forall x, outcome t x -> exists a, fst x = Ok a.
  Definition okR {A} (f : A -> R) (x : res A * st L) : R := match fst x with Ok a => f a | Err _ => 0%R end.

  Lemma quiet_after {A B} (t : stree L (res A * st L)) (f : A -> st L -> stree L (res B * st L)) :
    quiet (tbind t (fun x => after x f)) -> quiet t /\ forall a s1, outcome t (Ok a, s1) -> quiet (f a s1).
  Proof.
    intros H. split.
    - intros [[a|e] s1] Hx; [exists a; reflexivity|]. destruct (H (Err e, s1)) as [b Hb]; [|discriminate].
      apply outcome_tbind. exists (Err e, s1). split; [exact Hx|constructor].
    - intros a s1 Ha x Hx. apply H. apply outcome_tbind. exists (Ok a, s1). split; [exact Ha|exact Hx].
  Qed.
  Lemma E_after {A B} (t : stree L (res A * st L)) (f : A -> st L -> stree L (res B * st L)) g :
    quiet t ->
    E (tbind t (fun x => after x f)) g = E t (fun x => match fst x with Ok a => E (f a (snd x)) g | Err _ => 0%R end).
  Proof.
    intros Hq. rewrite E_tbind. apply E_ext_out. intros [[a|e] s1] Hx; [reflexivity|].
    destruct (Hq _ Hx). discriminate.
  Qed.
  Lemma teq_quiet {A} (t t' : stree L (res A * st L)) : teq t t' -> quiet t -> quiet t'.
  Proof. intros H Hq x Hx. apply Hq. eapply teq_outcome; [apply teq_sym; exact H|exact Hx]. Qed.

  Definition sound (t : trace) : Prop := forall a r, In (a, r) t -> exists d, rv_den r = Proper d /\ rv_logp r = logp L d (rv_value r).

  Lemma exec_produces cond m : forall tr s o tr' s', pure M sp m -> wf_dict tr -> sound tr ->
    outcome (exec (L := L) cond m tr s) (Ok (o, tr'), s') ->
    sound tr' /\ exists n, produces m n o /\ view tr' = view tr ++ n.
  Proof.
    induction m as [o'|e|a d value rep k IH|a r0 k IH|k IH|k IH|d rep shape k IH|key k IH|key v k IH];
      intros tr s o tr' s' Hp Hw Hs H; try (inversion Hp; fail); cbn [exec] in H.
    - apply outcome_leaf in H. injection H as <- <- <-. split; [exact Hs|]. exists []. split; [constructor|rewrite app_nil_r; reflexivity].
    - assert (Hfin : forall v p s0, outcome (mbind (lift (add_node a (mkRV (Proper d) v (logp L d v) p rep true) tr))
                (fun tr' => exec cond (k v) tr') s0) (Ok (o, tr'), s') -> pure M sp (k v) ->
                sound tr' /\ exists n, produces (k v) n o /\ view tr' = view tr ++ (a, (prov_eqb p OBSERVED, v, logp L d v)) :: n).
      { intros v p s0 H0 Hpk. apply ret_mbind in H0. destruct H0 as (tr1 & s1 & H1 & H0). apply ret_lift in H1. destruct H1 as [H1 <-].
        apply add_node_wf in H1; [|exact Hw]. destruct H1 as (Hw1 & _ & ->).
        assert (Hs1 : sound (tr ++ [(a, mkRV (Proper d) v (logp L d v) p rep true)])).
        { intros b r Hin. apply in_app_iff in Hin. destruct Hin as [Hin|[Hin|[]]]; [eapply Hs; exact Hin|].
          injection Hin as <- <-. exists d. split; reflexivity. }
        destruct (IH _ _ _ _ _ _ Hpk Hw1 Hs1 H0) as (Hs' & n & Hn & Ev). split; [exact Hs'|].
        exists n. split; [exact Hn|]. rewrite Ev, view_app, <- app_assoc. reflexivity. }
      destruct value as [[v pv]|].
      + inversion Hp; subst. destruct (Hfin _ _ _ H) as (Hs' & n & Hn & Ev); [auto|]. split; [exact Hs'|]. eexists. split; [constructor; exact Hn|exact Ev].
      + inversion Hp as [|a' d' rep' k' Hsp Hk|]; subst.
        destruct (match cond with Some ct => dget a ct | None => None end) as [r1|].
        * destruct (Hfin _ _ _ H (Hk _)) as (Hs' & n & Hn & Ev). split; [exact Hs'|]. eexists. split; [apply pr_smp; exact Hn|exact Ev].
        * apply outcome_draw in H. destruct H as [v H].
          destruct (Hfin _ _ _ H (Hk _)) as (Hs' & n & Hn & Ev). split; [exact Hs'|]. eexists. split; [apply pr_smp; exact Hn|exact Ev].
  Qed.

  Lemma exec_E cond m : forall tr s F, pure M sp m -> wf_dict tr ->
    (forall a, samples m a -> value_in cond a <> None -> latent_in_opt cond a = true) ->
    quiet (exec (L := L) cond m tr s) ->
    E (exec cond m tr s) (okR (fun x => (lu (latent_in_opt cond) (view (snd x)) * F (view (snd x)) (fst x))%R)) =
    (lu (latent_in_opt cond) (view tr) * WC (value_in cond) m (fun n o => F (view tr ++ n) o))%R.
  Proof.
    induction m as [o'|e|a d value rep k IH|a r0 k IH|k IH|k IH|d rep shape k IH|key k IH|key v k IH];
      intros tr s F Hp Hw Hc Hq; try (inversion Hp; fail); cbn [exec].
    - cbn. rewrite app_nil_r. reflexivity.
    - set (fin v p := mbind (lift (add_node a (mkRV (Proper d) v (logp L d v) p rep true) tr)) (fun tr' => exec cond (k v) tr')).
      assert (Hfin : forall v p s0, quiet (fin v p s0) -> pure M sp (k v) ->
        E (fin v p s0) (okR (fun x => (lu (latent_in_opt cond) (view (snd x)) * F (view (snd x)) (fst x))%R)) =
        (lu (latent_in_opt cond) (view tr) * ((if prov_eqb p OBSERVED || latent_in_opt cond a then pm d v else 1) *
           WC (value_in cond) (k v) (fun n o => F (view tr ++ (a, (prov_eqb p OBSERVED, v, logp L d v)) :: n) o)))%R).
      { intros v p s0 Hq0 Hpk. unfold fin in *. rewrite mbind_lift in *.
        destruct (add_node a _ tr) as [tr1|e] eqn:Ea.
        2:{ destruct (Hq0 (Err e, s0)) as [x Hx]; [constructor|discriminate]. }
        apply add_node_wf in Ea; [|exact Hw]. destruct Ea as (Hw1 & _ & ->).
        rewrite IH; [|exact Hpk|exact Hw1| |exact Hq0].
        2:{ intros b Hb. apply Hc. econstructor. exact Hb. }
        rewrite view_app, lu_app. cbn [view map fst snd lu]. unfold is_observed. cbn [rv_prov rv_logp rv_value].
        rewrite Rmult_1_r, Rmult_assoc. do 2 f_equal. apply WC_ext. intros n o. rewrite <- app_assoc. reflexivity. }
      cbn [exec] in Hq. fold fin in Hq. 
      destruct value as [[v pv]|].
      + inversion Hp as [| |a' d' v' rep' k' Hk]; subst. etransitivity; [exact (Hfin v OBSERVED s Hq (Hk v))|]. cbn [prov_eqb orb WC]. reflexivity.
      + inversion Hp as [|a' d' rep' k' Hsp Hk|]; subst.
        assert (Hcase : value_in cond a = option_map (@rv_value L) (match cond with Some ct => dget a ct | None => None end)).
        { destruct cond; reflexivity. }
        cbn [WC]. rewrite Hcase.
        destruct (match cond with Some ct => dget a ct | None => None end) as [r1|] eqn:Er; cbn [option_map].
        * etransitivity; [exact (Hfin _ REUSED s Hq (Hk _))|]. cbn [prov_eqb orb].
          rewrite (Hc a) by (try constructor; rewrite Hcase; discriminate). reflexivity.
        * cbn [expect]. assert (El : latent_in_opt cond a = false).
          { destruct cond as [ct|]; [|reflexivity]. cbn. unfold latent_in. rewrite Er. reflexivity. }
          rewrite <- (int_scale M ML). apply (int_ext M ML). intros v.
          match goal with |- (_ * E ?t _)%R = _ => change t with (fin v SAMPLED s) end. rewrite (Hfin v SAMPLED s).
          -- cbn [prov_eqb orb]. rewrite El. ring.
          -- intros x Hx. apply Hq. econstructor. exact Hx.
          -- apply Hk.
  Qed.

  (** *** Running a Program *)
  Definition wt (F : nodes -> pyval -> R) : res (out L) * st L -> R :=
    okR (fun o => (ew (out_lw o) * F (view (out_trace o)) (out_output o))%R).

  Lemma prog_quiet oid sg m c kws s : quiet (run (L := L) (IProg oid sg m) c kws s) ->
    clash ["self"] kws || clash (firstn 3 (s_args sg)) (prog_kwargs sg kws) = false.
  Proof.
    intros Hq. cbn [run] in Hq. unfold forward in Hq.
    fold (k_sd kws) (k_bd kws) (k_rep kws) (prog_kwargs sg kws) in Hq.
    destruct (clash ["self"] kws || clash (firstn 3 (s_args sg)) (prog_kwargs sg kws)) eqn:E; [|reflexivity].
    destruct (Hq (Err TypeError, s)) as [x Hx]; [|discriminate].
    constructor.
  Qed.

  Lemma prog_E oid sg (m : pyval -> dict pyval -> model) c kws s F : wf_st s -> pure M sp (m c (prog_kwargs sg kws)) ->
    (forall a, samples (m c (prog_kwargs sg kws)) a -> value_in (get_cond oid s) a <> None -> latent_in_opt (get_cond oid s) a = true) ->
    quiet (run (L := L) (IProg oid sg m) c kws s) ->
    E (run (IProg oid sg m) c kws s) (wt F) = WC (value_in (get_cond oid s)) (m c (prog_kwargs sg kws)) F.
  Proof.
    intros Hs Hp Hc Hq. pose proof (prog_quiet _ _ _ _ _ _ Hq) as Hcl.
    pose proof (forward_eq oid sg m c kws s Hcl) as Heq.
    pose proof (teq_quiet _ _ Heq Hq) as Hq'. pose proof (quiet_after _ _ Hq') as [Hqe Hqt].
    cbn [run]. rewrite (E_teq _ _ _ Heq), E_after by exact Hqe.
    transitivity (lu (latent_in_opt (get_cond oid s)) (view []) *
      WC (value_in (get_cond oid s)) (m c (prog_kwargs sg kws)) (fun n o => F (view [] ++ n) o))%R.
    2:{ cbn [view map lu app]. rewrite Rmult_1_l. reflexivity. }
    rewrite <- (exec_E (get_cond oid s) (m c (prog_kwargs sg kws)) [] _ F Hp (wf_nil (V := rv L)) Hc Hqe).
    apply E_ext_out. intros [[[o tr]|e] s1] Hx; [|reflexivity]. unfold okR at 1. cbn [fst snd expect].
    destruct (Hqt _ _ Hx (prog_tail kws (get_cond oid s) (o, tr), s1)) as [r Hr]; [constructor|]. cbn [fst] in Hr. rewrite Hr.
    assert (Hret : returns (forward (L := L) oid sg m c kws) s r s1).
    { unfold returns. eapply teq_outcome; [apply teq_sym; exact Heq|]. apply outcome_tbind. exists (Ok (o, tr), s1).
      split; [exact Hx|]. unfold after. cbn [fst snd]. rewrite Hr. constructor. }
    apply forward_weight in Hret; [|exact HL|exact Hs]. destruct Hret as [_ Hw].
    unfold wt, okR. cbn [fst]. rewrite Hw, ew_logp_sum.
    unfold prog_tail in Hr. destruct (log_joint _ _ _ _ _) as [lwv|e]; cbn [rbind] in Hr; [|discriminate].
    injection Hr as <-. reflexivity.
  Qed.

  Lemma prog_out oid sg (m : pyval -> dict pyval -> model) c kws s o s' :
    pure M sp (m c (prog_kwargs sg kws)) -> quiet (run (L := L) (IProg oid sg m) c kws s) ->
    outcome (run (IProg oid sg m) c kws s) (Ok o, s') ->
    sound (out_trace o) /\ wf_dict (out_trace o) /\ produces (m c (prog_kwargs sg kws)) (view (out_trace o)) (out_output o).
  Proof.
    intros Hp Hq Ho. pose proof (prog_quiet _ _ _ _ _ _ Hq) as Hcl.
    pose proof (teq_outcome _ _ _ (forward_eq oid sg m c kws s Hcl) Ho) as H.
    apply outcome_tbind in H. destruct H as ([[[ou tr]|e] s1] & H1 & H2); unfold after in H2; cbn [fst snd] in H2; apply outcome_leaf in H2; [|discriminate].
    unfold prog_tail in H2. destruct (log_joint _ _ _ _ _) as [lwv|e]; cbn [rbind] in H2; [|discriminate].
    injection H2 as <- <-. cbn [out_trace out_output].
    pose proof (exec_inv _ _ _ _ _ _ (wf_nil (V := rv L)) H1) as (_ & _ & _ & Hwf).
    destruct (exec_produces _ _ _ _ _ _ _ Hp (wf_nil (V := rv L)) ltac:(intros a r []) H1) as (Hs & n & Hn & Ev).
    cbn in Ev. split; [exact Hs|]. split; [eapply Hwf; reflexivity|]. rewrite Ev. exact Hn.
  Qed.

  (** *** The targets: Extend *)
  Lemma clash_sub3 ix (kws : dict pyval) : clash ["self"; "c"; "fn"] kws = false -> clash ["self"; "c"; "fn"] (sub_kwargs ix kws) = false.
  Proof.
    assert (Hs : forall (k : dict pyval), clash ["self"; "c"; "fn"] k = clash ["self"] k || clash ["c"] k || clash ["fn"] k).
    { intros k. unfold clash. induction k as [|[a v] k IH]; [reflexivity|]. cbn [existsb fst]. rewrite IH, !mem_cons.
      destruct (String.eqb a "self"), (String.eqb a "c"), (String.eqb a "fn"); cbn; rewrite ?orb_true_r; try reflexivity. }
    rewrite !Hs, !clash_sub_kwargs by (cbn; intuition discriminate). auto.
  Qed.

  Lemma extend_tail_facts o kws ct (po fo r : out L) : wf_dict (out_trace po) -> wf_dict (out_trace fo) ->
    extend_tail o kws (Some ct) po fo = Ok r ->
    out_trace r = out_trace po ++ out_trace fo /\ disjoint_keys (out_trace po) (out_trace fo) /\
    out_lw r = tadd L (out_lw po) (logp_sum (k_sd kws) (k_bd kws) (fun a v => is_observed v || true) (out_trace fo)) /\
    out_output r = out_output fo /\ out_marginal r = Some (dkeys (out_trace po), out_output po).
  Proof.
    intros Wp Wf H. unfold extend_tail in H.
    destruct (forallb _ (out_trace fo)) eqn:Eo; cbn [rbind] in H; [|discriminate].
    destruct (sinter _ _) eqn:Ei in H; [|discriminate].
    assert (Hd : disjoint_keys (out_trace po) (out_trace fo)).
    { intros k Ha Hb. rewrite sinter_nil in Ei. exact (Ei k Hb Ha). }
    destruct (log_joint _ _ _ _ _) as [lu2|e] eqn:El; cbn [rbind] in H; [|discriminate].
    rewrite copytraces_two_disjoint in H by assumption. cbn [rbind] in H.
    match type of H with context [add_loss ?a ?b ?c ?d] => destruct (add_loss a b c d) as [r'|e] eqn:Ea end; cbn [rbind] in H; [|discriminate].
    injection H as <-. apply add_loss_ok in Ea. destruct Ea as (l & _ & ->).
    match goal with |- context [add_subs ?d ?sb ?x] => destruct (sd_fields L d sb x) as (-> & -> & -> & _ & _ & _ & -> & _) end.
    cbn. split; [reflexivity|]. split; [exact Hd|]. split; [|auto]. f_equal.
    apply (log_joint_all L HL) in El; [|exact Wf|].
    - rewrite El. apply logp_sum_ext. intros a v _. destruct (is_observed v); reflexivity.
    - intros a v Hin E. rewrite forallb_forall in Eo. specialize (Eo _ Hin). cbn in Eo. unfold is_observed in Eo. rewrite E in Eo. discriminate.
  Qed.

  Definition mview (ks : list string) (n : nodes) : nodes := filter (fun an => mem (fst an) ks) n.
  Definition wt4 (F : nodes -> pyval -> nodes -> pyval -> R) : res (out L) * st L -> R :=
    okR (fun r => match out_marginal r with
                  | Some (ks, mo) => (ew (out_lw r) * F (view (out_trace r)) (out_output r) (mview ks (view (out_trace r))) mo)%R
                  | None => 0%R
                  end).
  Lemma mview_app (a b : trace) : disjoint_keys a b -> mview (dkeys a) (view (a ++ b)) = view a.
  Proof.
    intros Hd. transitivity (view (filter (fun ar => mem (fst ar) (dkeys a)) (a ++ b))).
    - generalize (a ++ b) as l. induction l as [|[k v] l IH]; [reflexivity|]. cbn [view mview map filter fst snd].
      change (map _ l) with (view l). fold (mview (dkeys a) (view l)). destruct (mem k (dkeys a)); cbn; [f_equal|]; exact IH.
    - rewrite filter_keys_app by exact Hd. reflexivity.
  Qed.

  (** what is known of the substituted trace *)
  Definition supplies (C : list string) (ct : trace) (m : model) : Prop :=
    wf_dict ct /\ (forall a, In a C -> latent_in ct a = true) /\
    (forall a, samples m a -> value_in (Some ct) a <> None -> latent_in ct a = true).

  Definition target_spec (C : list string) (t : inf L) : Prop :=
    forall c kws s ct, target_ok M sp C t c kws -> wf_dict kws -> wf_st s -> clash ["self"; "c"; "fn"] kws = false ->
    get_cond (oid_of t) s = Some ct -> supplies C ct (target t c kws) -> quiet (run t c kws s) ->
    (forall F, E (run t c kws s) (wt F) = WC (value_in (Some ct)) (target t c kws) F) /\
    (forall o s', outcome (run t c kws s) (Ok o, s') ->
       sound (out_trace o) /\ wf_dict (out_trace o) /\ produces (target t c kws) (view (out_trace o)) (out_output o)).

  Lemma extend_core C oid p fid sg m o : target_spec C p ->
    forall c kws s ct, target_ok M sp C (IExtend oid p (IProg fid sg m) o) c kws -> wf_dict kws -> wf_st s ->
    clash ["self"; "c"; "fn"] kws = false ->
    get_cond oid s = Some ct -> supplies C ct (target (IExtend oid p (IProg fid sg m) o) c kws) ->
    quiet (run (IExtend oid p (IProg fid sg m) o) c kws s) ->
    (forall F, E (run (IExtend oid p (IProg fid sg m) o) c kws s) (wt4 F) =
       WC (value_in (Some ct)) (target p c (sub_kwargs (in_ix o) kws)) (fun n1 o1 =>
         WC (value_in (Some ct)) (m o1 (prog_kwargs sg (sub_kwargs (in_ix o) kws))) (fun n2 o2 => F (n1 ++ n2) o2 n1 o1))) /\
    (forall r s', outcome (run (IExtend oid p (IProg fid sg m) o) c kws s) (Ok r, s') ->
       exists n1 o1 n2 tp, out_marginal r = Some (dkeys tp, o1) /\ view tp = n1 /\ view (out_trace r) = n1 ++ n2 /\
         filter (fun ar => mem (fst ar) (dkeys tp)) (out_trace r) = tp /\
         sound (out_trace r) /\ wf_dict (out_trace r) /\
         produces (target p c (sub_kwargs (in_ix o) kws)) n1 o1 /\
         produces (m o1 (prog_kwargs sg (sub_kwargs (in_ix o) kws))) n2 (out_output r)).
  Proof.
    intros IH c kws s ct Hok Hk Hs Hcl Hcond Hsup Hq.
    destruct Hok as (Hself & Hfp & Hokp & Hokf). pose proof (wf_sub_kwargs (in_ix o) kws Hk) as Hk'.
    pose proof (clash_sub3 (in_ix o) kws Hcl) as Hcl'. destruct Hsup as (Wct & HC & Hval).
    set (kws' := sub_kwargs (in_ix o) kws) in *.
    pose proof (run_extend_eq oid p (IProg fid sg m) o c kws s Hk Hs Hcl) as Heq. cbn zeta in Heq. rewrite Hcond in Heq. fold kws' in Heq.
    cbn [oid_of] in Heq. set (sp0 := set_cond fid (Some ct) (set_cond (oid_of p) (Some ct) s)) in *.
    assert (Wsp : wf_st sp0) by (repeat apply wf_set_cond; try assumption; intros t [= <-]; exact Wct).
    assert (Cp : get_cond (oid_of p) sp0 = Some ct).
    { unfold sp0. destruct (Nat.eq_dec (oid_of p) fid) as [->|Hne]; [apply get_set_same|]. rewrite get_set_other by exact Hne. apply get_set_same. }
    assert (Cf : get_cond fid sp0 = Some ct) by apply get_set_same.
    assert (Hoid : oid <> oid_of p /\ oid <> fid /\ ~ In oid (substituted p)).
    { cbn [substituted oid_of In] in Hself. rewrite in_app_iff in Hself. cbn in Hself. intuition congruence. }
    destruct Hoid as (Hop & Hof & Hosub).
    assert (Co : get_cond oid sp0 = Some ct) by (unfold sp0; rewrite !get_set_other by assumption; exact Hcond).
    assert (Hsupp : supplies C ct (target p c kws')).
    { split; [exact Wct|]. split; [exact HC|]. intros a Ha. apply Hval. cbn [target]. fold kws'. apply samples_mseq_l, Ha. }
    pose proof (teq_quiet _ _ Heq Hq) as Hq'.
    assert (Hqp : quiet (run p c kws' sp0)).
    { intros [[a|e] s1] Hx; [eexists; reflexivity|].
      edestruct Hq' as [b Hb]; [apply outcome_tbind; exists (Err e, s1); split; [exact Hx|constructor]|discriminate]. }
    destruct (IH c kws' sp0 ct Hokp Hk' Wsp Hcl' Cp Hsupp Hqp) as [IHE IHo].
    (* the kernel's run, for an outcome of p *)
    assert (Hstep : forall po s1, outcome (run p c kws' sp0) (Ok po, s1) ->
       let k := m (out_output po) (prog_kwargs sg kws') in
       sound (out_trace po) /\ wf_dict (out_trace po) /\ produces (target p c kws') (view (out_trace po)) (out_output po) /\
       pure M sp k /\ (forall a, ~ observes k a) /\ (forall a, samples k a -> In a C) /\
       wf_st s1 /\ get_cond fid s1 = Some ct /\
       quiet (run (IProg fid sg m) (out_output po) kws' s1) /\
       forall fo s2, outcome (run (IProg fid sg m) (out_output po) kws' s1) (Ok fo, s2) ->
         sound (out_trace fo) /\ wf_dict (out_trace fo) /\ produces k (view (out_trace fo)) (out_output fo) /\
         exists r, extend_tail o kws (Some ct) po fo = Ok r /\
           get_cond oid (set_cond (oid_of p) None (set_cond fid None s2)) = Some ct).
    { intros po s1 Hp k. destruct (IHo _ _ Hp) as (Sp & Wp & Pp). split; [exact Sp|]. split; [exact Wp|]. split; [exact Pp|].
      destruct (Hokf _ (produces_value _ _ _ Pp)) as (Hpk & Hob & Hsm). fold k in Hpk, Hob, Hsm.
      split; [exact Hpk|]. split; [exact Hob|]. split; [exact Hsm|].
      pose proof (run_scoped _ _ _ _ _ _ _ Hp) as (Hsc & _).
      assert (W1 : wf_st s1) by (eapply run_wf_st; eassumption).
      assert (Cf1 : get_cond fid s1 = Some ct) by (rewrite Hsc by exact Hfp; exact Cf).
      split; [exact W1|]. split; [exact Cf1|].
      assert (Hqf : quiet (run (IProg fid sg m) (out_output po) kws' s1)).
      { intros [[a|e] s2] Hx; [eexists; reflexivity|].
        edestruct Hq' as [b Hb]; [apply outcome_tbind; exists (Ok po, s1); split; [exact Hp|cbn [fst snd]; apply outcome_tbind; exists (Err e, s2); split; [exact Hx|constructor]]|discriminate]. }
      split; [exact Hqf|]. intros fo s2 Hf. destruct (prog_out _ _ _ _ _ _ _ _ Hpk Hqf Hf) as (Sf & Wf & Pf).
      split; [exact Sf|]. split; [exact Wf|]. split; [exact Pf|].
      pose proof (run_scoped _ _ _ _ _ _ _ Hf) as (Hsc2 & _).
      assert (Co2 : get_cond oid (set_cond (oid_of p) None (set_cond fid None s2)) = Some ct).
      { rewrite !get_set_other by assumption. rewrite Hsc2 by (intros []). rewrite Hsc by exact Hosub. exact Co. }
      edestruct Hq' as [r Hr].
      { apply outcome_tbind. exists (Ok po, s1). split; [exact Hp|]. cbn [fst snd]. apply outcome_tbind. exists (Ok fo, s2).
        split; [exact Hf|]. cbn [fst snd]. constructor. }
      cbn [fst] in Hr. rewrite Co2 in Hr. exists r. split; [exact Hr|exact Co2]. }
    split.
    - intros F. rewrite (E_teq _ _ _ Heq), E_tbind. rewrite <- IHE. apply E_ext_out. intros [[po|e] s1] Hp.
      2:{ destruct (Hqp _ Hp). discriminate. }
      destruct (Hstep _ _ Hp) as (Sp & Wp & Pp & Hpk & Hob & Hsm & W1 & Cf1 & Hqf & Hfo). cbn zeta in Hfo.
      unfold wt, okR at 1. cbn [fst snd]. rewrite E_tbind.
      set (k := m (out_output po) (prog_kwargs sg kws')) in *.
      rewrite (WC_ext_on _ k _ (fun n2 o2 => (lu (fun _ => true) n2 * / lu (latent_in ct) n2 * F (view (out_trace po) ++ n2) o2 (view (out_trace po)) (out_output po))%R)).
      2:{ intros n2 o2 Pn. rewrite (lu_ext (fun _ => true) (latent_in ct) n2).
          - rewrite Rinv_r by (apply Rgt_not_eq, lu_pos). ring.
          - intros a v l Hin. symmetry. apply HC, Hsm. eapply produces_latent; eassumption. }
      rewrite <- Cf1.
      rewrite <- (prog_E fid sg m (out_output po) kws' s1); [| exact W1|exact Hpk| |exact Hqf].
      2:{ intros a Ha _. rewrite Cf1. cbn. apply HC, Hsm, Ha. }
      rewrite <- E_scale. apply E_ext_out. intros [[fo|e] s2] Hf.
      2:{ destruct (Hqf _ Hf). discriminate. }
      destruct (Hfo _ _ Hf) as (Sf & Wf & Pf & r & Hr & Co2). cbn [fst snd expect]. rewrite Co2, Hr.
      destruct (extend_tail_facts _ _ _ _ _ _ Wp Wf Hr) as (Et & Hd & Elw & Eo & Em).
      unfold wt4, wt, okR. cbn [fst]. rewrite Em, Elw, Eo, Et, mview_app by exact Hd. rewrite view_app.
      rewrite (lw_add M ML), exp_plus, ew_logp_sum.
      assert (Efo : ew (out_lw fo) = lu (latent_in ct) (view (out_trace fo))).
      { pose proof (forward_weight L HL fid sg m (out_output po) kws' s1 fo s2 W1 Hf) as [_ Hw].
        rewrite Hw, ew_logp_sum, Cf1. reflexivity. }
      rewrite Efo. pose proof (lu_pos (latent_in ct) (view (out_trace fo))). field. lra.
    - intros r s' Hr. apply (teq_outcome _ _ _ Heq) in Hr. apply outcome_tbind in Hr. destruct Hr as ([[po|e] s1] & Hp & Hr); cbn [fst snd] in Hr.
      2:{ apply outcome_leaf in Hr. discriminate. }
      destruct (Hstep _ _ Hp) as (Sp & Wp & Pp & Hpk & Hob & Hsm & W1 & Cf1 & Hqf & Hfo). cbn zeta in Hfo.
      apply outcome_tbind in Hr. destruct Hr as ([[fo|e] s2] & Hf & Hr); cbn [fst snd] in Hr; apply outcome_leaf in Hr; [|discriminate].
      destruct (Hfo _ _ Hf) as (Sf & Wf & Pf & r' & Hr' & Co2). rewrite Co2, Hr' in Hr. injection Hr as <- <-.
      destruct (extend_tail_facts _ _ _ _ _ _ Wp Wf Hr') as (Et & Hd & Elw & Eo & Em).
      exists (view (out_trace po)), (out_output po), (view (out_trace fo)), (out_trace po).
      split; [exact Em|]. split; [reflexivity|]. rewrite Et. split; [apply view_app|]. split; [apply filter_keys_app, Hd|].
      split. { intros a v Hin. apply in_app_iff in Hin. destruct Hin; [eapply Sp|eapply Sf]; eassumption. }
      split; [apply wf_app; assumption|]. split; [exact Pp|]. rewrite Eo. exact Pf.
  Qed.

  Lemma produces_seq (m : model) f n1 o1 n2 o2 : produces m n1 o1 -> produces (f o1) n2 o2 -> produces (mseq m f) (n1 ++ n2) o2.
  Proof. induction 1; cbn [mseq app]; intros H'; [exact H'| |]; constructor; auto. Qed.

  Lemma target_all C t : target_spec C t.
  Proof.
    induction t as [oid sg m|oid q IHq ix l0 rs dbg|oid p IHp f IHf o|oid q2 IH2 q1 IH1 o|oid p IHp q IHq o tf nr];
      intros c kws s ct Hok Hk Hs Hcl Hcond Hsup Hq; try (destruct Hok; fail).
    - cbn [target_ok] in Hok. cbn [oid_of] in Hcond. split.
      + intros F. rewrite <- Hcond. apply prog_E; try assumption. rewrite Hcond. apply Hsup.
      + intros r s' Hr. eapply prog_out; eassumption.
    - destruct f as [fid sg m| | | |]; try (destruct Hok; fail). cbn [oid_of] in Hcond.
      destruct (extend_core C oid p fid sg m o IHp c kws s ct Hok Hk Hs Hcl Hcond Hsup Hq) as [HE Ho]. split.
      + intros F. cbn [target]. rewrite WC_mseq. rewrite <- (HE (fun n o _ _ => F n o)).
        apply E_ext_out. intros [[r|e] s'] Hr; [|reflexivity]. destruct (Ho _ _ Hr) as (n1 & o1 & n2 & tp & Em & _).
        unfold wt, wt4, okR. cbn [fst]. rewrite Em. reflexivity.
      + intros r s' Hr. destruct (Ho _ _ Hr) as (n1 & o1 & n2 & tp & Em & _ & Ev & _ & Sr & Wr & P1 & P2).
        split; [exact Sr|]. split; [exact Wr|]. cbn [target]. rewrite Ev. eapply produces_seq; eassumption.
  Qed.

  (** *** The part of a target that Propose keeps *)
  Definition wtm (p : inf L) (F : nodes -> pyval -> R) : res (out L) * st L -> R :=
    match p with IExtend _ _ _ _ => wt4 (fun _ _ => F) | _ => wt F end.
  Definition WCm (x : string -> option T) (p : inf L) (c : pyval) (kws : dict pyval) (F : nodes -> pyval -> R) : R :=
    match p with
    | IExtend _ p' f o => WC x (target p' c (sub_kwargs (in_ix o) kws)) (fun n1 o1 =>
                            WC x (target f o1 (sub_kwargs (in_ix o) kws)) (fun _ _ => F n1 o1))
    | _ => WC x (target p c kws) F
    end.
  Definition kept (p : inf L) (c : pyval) (kws : dict pyval) : model :=
    match p with
    | IExtend _ p' _ o => target p' c (sub_kwargs (in_ix o) kws)
    | _ => target p c kws
    end.

  Lemma pure_mseq m f : pure M sp m -> (forall o, returns_value m o -> pure M sp (f o)) -> pure M sp (mseq m f).
  Proof.
    induction 1 as [o|a d rep k Hs Hk IH|a d v rep k Hk IH]; intros Hf; cbn [mseq].
    - apply Hf. constructor.
    - constructor; [exact Hs|]. intros v. apply IH. intros o Ho. apply Hf. econstructor. exact Ho.
    - constructor. intros w. apply IH. intros o Ho. apply Hf. econstructor. exact Ho.
  Qed.
  Lemma target_pure C t : forall c kws, target_ok M sp C t c kws -> pure M sp (target t c kws).
  Proof.
    induction t as [oid sg m|oid q IHq ix l0 rs dbg|oid p IHp f IHf o|oid q2 IH2 q1 IH1 o|oid p IHp q IHq o tf nr];
      intros c kws H; try (destruct H; fail).
    - exact H.
    - destruct f as [fid sg m| | | |]; try (destruct H; fail). destruct H as (_ & _ & Hp & Hf).
      cbn [target]. apply pure_mseq; [apply IHp, Hp|]. intros o1 H1. apply (Hf o1 H1).
  Qed.

  Lemma kept_facts C p c kws s ct : target_ok M sp C p c kws -> wf_dict kws -> wf_st s -> clash ["self"; "c"; "fn"] kws = false ->
    get_cond (oid_of p) s = Some ct -> supplies C ct (target p c kws) -> quiet (run p c kws s) ->
    (forall F, E (run p c kws s) (wtm p F) = WCm (value_in (Some ct)) p c kws F) /\
    (forall r s' mt mo, outcome (run p c kws s) (Ok r, s') -> target_part p r mt mo ->
       sound mt /\ produces (kept p c kws) (view mt) mo /\
       forall F s1, wtm p F (Ok r, s1) = (ew (out_lw r) * F (view mt) mo)%R).
  Proof.
    intros Hok Hk Hs Hcl Hcond Hsup Hq.
    destruct p as [oid sg m|oid q ix l0 rs dbg|oid p f o|oid q2 q1 o|oid p q o tf nr]; try (destruct Hok; fail).
    - destruct (target_all C _ c kws s ct Hok Hk Hs Hcl Hcond Hsup Hq) as [HE Ho]. split; [exact HE|].
      intros r s' mt mo Hr Ht. destruct (Ho _ _ Hr) as (Sr & Wr & Pr). destruct Ht as [-> ->].
      split; [exact Sr|]. split; [exact Pr|]. intros F s1. reflexivity.
    - destruct f as [fid sg m| | | |]; try (destruct Hok; fail). cbn [oid_of] in Hcond.
      destruct (extend_core C oid p fid sg m o (target_all C p) c kws s ct Hok Hk Hs Hcl Hcond Hsup Hq) as [HE Ho].
      split; [intros F; exact (HE (fun _ _ => F))|].
      intros r s' mt mo Hr Ht. destruct (Ho _ _ Hr) as (n1 & o1 & n2 & tp & Em & Ev1 & Ev & Ef & Sr & Wr & P1 & P2).
      destruct Ht as (mk & Em' & Et). rewrite Em in Em'. injection Em' as <- <-. rewrite Ef in Et. subst mt.
      split. { intros a v Hin. apply (Sr a v). rewrite <- Ef in Hin. apply filter_In in Hin. apply Hin. }
      split; [rewrite Ev1; exact P1|]. intros F s1. unfold wtm, wt4, okR. cbn [fst]. rewrite Em.
      assert (Ev2 : mview (dkeys tp) (view (out_trace r)) = view tp); [|rewrite Ev2; reflexivity].
      rewrite <- Ef at 2. clear. induction (out_trace r) as [|[k v] l IH]; [reflexivity|].
      cbn [view mview map filter fst snd]. change (map _ l) with (view l). fold (mview (dkeys tp) (view l)).
      destruct (mem k (dkeys tp)); cbn; [f_equal|]; exact IH.
  Qed.

  Lemma WCm_sub C p c kws x y F : target_ok M sp C p c kws -> (forall a, samples (target p c kws) a -> x a = y a) -> WCm x p c kws F = WCm y p c kws F.
  Proof.
    intros Hok H. destruct p as [oid sg m|oid q ix l0 rs dbg|oid p f o|oid q2 q1 o|oid p q o tf nr]; try (destruct Hok; fail); cbn [WCm].
    - apply WC_sub, H.
    - apply (WC2_sub _ (fun o1 => target f o1 (sub_kwargs (in_ix o) kws)) x y (fun n1 o1 _ _ => F n1 o1)). exact H.
  Qed.

  Lemma Int_WCm C p c kws F : target_ok M sp C p c kws -> NoDup C -> always_samples C C (target p c kws) ->
    Int C (fun x => WCm x p c kws F) = WC none (kept p c kws) F.
  Proof.
    intros Hok Hnd Ha. pose proof (target_pure _ _ _ _ Hok) as Hp.
    destruct p as [oid sg m|oid q ix l0 rs dbg|oid p f o|oid q2 q1 o|oid p q o tf nr]; try (destruct Hok; fail); cbn [WCm kept].
    - apply (Int_WC C); auto.
    - destruct f as [fid sg m| | | |]; try (destruct Hok; fail). destruct Hok as (_ & _ & Hpp & Hf).
      rewrite (Int_WC2 C (target p c (sub_kwargs (in_ix o) kws)) (fun o1 => target (IProg fid sg m) o1 (sub_kwargs (in_ix o) kws)) C Ha)
        with (F := fun n1 o1 _ _ => F n1 o1); auto.
      + apply WC_ext_on. intros n1 o1 Hn. destruct (Hf o1) as (Hpk & Hob & _); [eapply produces_value, Hn|].
        apply WC_mass; assumption.
      + eapply target_pure, Hpp.
      + intros o1 H1. apply (Hf o1 H1).
  Qed.

  (** *** Compose and Propose *)
  Lemma compose_tail_facts o kws (o1 o2 r : out L) : wf_dict (out_trace o1) -> wf_dict (out_trace o2) ->
    compose_tail o kws o1 o2 = Ok r ->
    out_trace r = out_trace o2 ++ out_trace o1 /\ disjoint_keys (out_trace o2) (out_trace o1) /\
    out_lw r = tadd L (out_lw o1) (out_lw o2) /\ out_output r = out_output o2.
  Proof.
    intros W1 W2 H. unfold compose_tail in H.
    destruct (sinter _ _) eqn:Ei in H.
    2:{ destruct (copytraces _ _ _); cbn in H; discriminate. }
    assert (Hd : disjoint_keys (out_trace o2) (out_trace o1)) by (intros k Ha Hb; rewrite sinter_nil in Ei; exact (Ei k Ha Hb)).
    rewrite copytraces_two_disjoint in H by assumption. cbn [rbind] in H.
    match type of H with context [add_loss ?a ?b ?c ?d] => destruct (add_loss a b c d) as [r'|e] eqn:Ea end; cbn [rbind] in H; [|discriminate].
    injection H as <-. apply add_loss_ok in Ea. destruct Ea as (l & _ & ->).
    match goal with |- context [add_subs ?d ?sb ?x] => destruct (sd_fields L d sb x) as (-> & -> & -> & _) end.
    cbn. auto.
  Qed.

  Lemma propose_tail_facts o p q nr kws (qo po r : out L) : wf_dict (out_trace qo) -> wf_dict (out_trace po) ->
    propose_tail o p q None nr kws qo po = Ok r ->
    exists mt mo, target_part p po mt mo /\ wf_dict mt /\
      (if nr then out_trace r = mt else detached_rerun mt (out_trace r)) /\ wf_dict (out_trace r) /\
      out_output r = detach_output mo /\
      out_lw r = detach L (tadd L (out_lw qo) (tsub L (out_lw po)
        (logp_sum (k_sd kws) (k_bd kws) (fun a v => is_observed v || latent_in (out_trace po) a) (out_trace qo)))).
  Proof.
    intros Wq Wp H. unfold propose_tail in H. cbn [apply_transf rbind] in H.
    destruct (log_joint _ _ _ _ _) as [lu1|e] eqn:El; cbn [rbind] in H; [|discriminate].
    eapply log_joint_sum in El; [|exact HL|exact Wq|apply NoDup_sdiff, Wq].
    destruct (marginalize p po) as [[mo mt]|e] eqn:Hm; cbn [rbind fst snd] in H; [|discriminate].
    assert (Hmp : target_part p po mt mo /\ wf_dict mt).
    { unfold marginalize in Hm.
      destruct p as [pi sg m|pi q0 ix l0 rs dbg|pi p' f' o'|pi q2 q1 o'|pi p' q' o' tf' nr']; cbn [is_extend] in Hm;
        try (injection Hm as <- <-; cbn; repeat split; assumption).
      destruct (out_marginal po) as [[mk mo']|] eqn:Em; [|discriminate].
      rewrite copytraces_filter in Hm by exact Wp. cbn in Hm. injection Hm as <- <-.
      split; [|apply wf_filter, Wp]. exists mk. split; [exact Em|].
      apply filter_ext_in. intros [a r0] Hin. unfold keep. cbn [fst].
      apply Bool.eq_iff_eq_true. rewrite negb_true_iff, mem_not_In, In_sdiff, mem_In.
      assert (Ha : In a (dkeys (out_trace po))) by (apply in_map_iff; exists (a, r0); auto).
      destruct (in_dec string_dec a mk); intuition. }
    destruct Hmp as [Hmp Wm]. exists mt, mo. split; [exact Hmp|]. split; [exact Wm|].
    destruct (if nr then Ok mt else rerun_with_detached_values mt) as [tr|e] eqn:Etr; cbn [rbind] in H; [|discriminate].
    destruct (is_tensor L (tadd L (out_lw qo) (tsub L (out_lw po) lu1))); cbn [rbind] in H; [|discriminate].
    rewrite !copytraces_one in H by assumption. cbn [rbind] in H.
    destruct (forward_trace q qo) as [fw|e]; cbn [rbind] in H; [|discriminate].
    match type of H with context [add_loss ?a ?b ?c ?d] => destruct (add_loss a b c d) as [r'|e] eqn:Ea end; cbn [rbind] in H; [|discriminate].
    injection H as <-. apply add_loss_ok in Ea. destruct Ea as (l & _ & ->).
    match goal with |- context [add_subs ?d ?sb ?x] => destruct (sd_fields L d sb x) as (-> & -> & -> & _) end.
    cbn [with_loss out_trace out_lw out_output].
    assert (Htr : if nr then tr = mt else detached_rerun mt tr).
    { destruct nr; [injection Etr as <-; reflexivity|]. apply rerun_spec_ok; assumption. }
    split; [exact Htr|].
    split. { destruct nr; [subst; exact Wm|]. eapply rerun_items_wf; [apply wf_nil|exact Etr]. }
    split; [reflexivity|]. do 3 f_equal. rewrite El. apply logp_sum_ext. intros a v Hin. rewrite nodes_charged by assumption.
    unfold charged. rewrite (In_dget a v) by assumption. reflexivity.
  Qed.

  Lemma rerun_view (tr tr' : trace) : sound tr -> detached_rerun tr tr' -> view tr' = view tr.
  Proof.
    intros Hs H. unfold detached_rerun in H. induction H as [|[a r] [a' r'] tr tr' (E1 & E2 & E3 & E4 & E5) HF IH]; [reflexivity|].
    cbn [view map fst snd] in *. f_equal; [|apply IH; intros b x Hb; apply (Hs b x); right; exact Hb].
    destruct (Hs a r) as (d & Ed & El); [left; reflexivity|]. rewrite Ed in E5. destruct E5 as [E5 _].
    rewrite (detach_id M ML) in *. unfold is_observed. rewrite E1, E2, E3, E5, El. reflexivity.
  Qed.
  Lemma detach_output_id (v : pyval) : detach_output v = v.
  Proof.
    destruct v as [| | | |t|l|d|n]; try reflexivity; cbn [detach_output].
    - rewrite (detach_id M ML). reflexivity.
    - f_equal. induction d as [|[k v] d IH]; [reflexivity|]. cbn [map fst snd]. rewrite IH. f_equal. f_equal.
      destruct v; try reflexivity. cbn. rewrite (detach_id M ML). reflexivity.
  Qed.

  Definition perm_inv (F : nodes -> pyval -> R) : Prop := forall n n' o, Permutation n n' -> F n o = F n' o.
  Lemma weightable_pure t : forall c kws, weightable M sp t c kws -> pure M sp (target t c kws).
  Proof.
    induction t as [oid sg m|oid q IHq ix l0 rs dbg|oid p IHp f IHf o|oid q2 IH2 q1 IH1 o|oid p IHp q IHq o tf nr];
      intros c kws H; try (destruct H; fail).
    - exact H.
    - destruct H as [H1 H2]. cbn [target]. apply pure_mseq; [apply IH1, H1|]. intros o1 Ho. apply IH2, H2, Ho.
    - destruct H as (_ & _ & C & _ & Hok & _). cbn [target].
      destruct p as [pid sg m|pid q0 ix l0 rs dbg|pid p f po|pid q2 q1 po|pid p q0 po tf0 nr0]; try (destruct Hok; fail).
      + exact Hok.
      + destruct f as [fid sg m| | | |]; try (destruct Hok; fail). destruct Hok as (_ & _ & Hp & _). eapply target_pure, Hp.
  Qed.

  Lemma clean_wf (s : st L) : clean s -> wf_st s.
  Proof. intros H i t Ht. rewrite H in Ht. discriminate. Qed.

  Theorem properly_weighted t : forall c kws s,
    weightable M sp t c kws -> wf_dict kws -> clean s -> clash ["self"; "c"; "fn"] kws = false -> quiet (run t c kws s) ->
    (forall F, perm_inv F -> E (run t c kws s) (wt F) = WC none (target t c kws) F) /\
    (forall o s', outcome (run t c kws s) (Ok o, s') -> wf_dict (out_trace o) /\ clean s' /\
       exists n, Permutation n (view (out_trace o)) /\ produces (target t c kws) n (out_output o)).
  Proof.
    induction t as [oid sg m|oid q IHq ix l0 rs dbg|oid p IHp f IHf o|oid q2 IH2 q1 IH1 o|oid p IHp q IHq o tf nr];
      intros c kws s Hwt Hk Hc Hcl Hq; try (destruct Hwt; fail).
    - cbn [weightable] in Hwt. pose proof (clean_wf s Hc) as Hs. split.
      + intros F _. rewrite (prog_E oid sg m c kws s F Hs Hwt); [|rewrite (Hc oid); cbn; congruence|exact Hq].
        rewrite (Hc oid). reflexivity.
      + intros r s' Hr. destruct (prog_out _ _ _ _ _ _ _ _ Hwt Hq Hr) as (_ & Wr & Pr). split; [exact Wr|]. split.
        * intros i. apply run_scoped in Hr. apply Hr, Hc.
        * eexists. split; [apply Permutation_refl|exact Pr].
    - destruct Hwt as [Hw1 Hw2]. pose proof (wf_sub_kwargs (in_ix o) kws Hk) as Hk'. pose proof (clash_sub3 (in_ix o) kws Hcl) as Hcl'.
      set (kws' := sub_kwargs (in_ix o) kws) in *.
      pose proof (run_compose_eq oid q2 q1 o c kws s Hk Hcl) as Heq. fold kws' in Heq.
      pose proof (teq_quiet _ _ Heq Hq) as Hq'. destruct (quiet_after _ _ Hq') as [Hq1 Hqr].
      destruct (IH1 c kws' s Hw1 Hk' Hc Hcl' Hq1) as [HE1 Ho1].
      assert (Hstep : forall o1 s1, outcome (run q1 c kws' s) (Ok o1, s1) ->
        wf_dict (out_trace o1) /\ clean s1 /\ (exists n, Permutation n (view (out_trace o1)) /\ produces (target q1 c kws') n (out_output o1)) /\
        quiet (run q2 (out_output o1) kws' s1) /\
        (forall F, perm_inv F -> E (run q2 (out_output o1) kws' s1) (wt F) = WC none (target q2 (out_output o1) kws') F) /\
        forall o2 s2, outcome (run q2 (out_output o1) kws' s1) (Ok o2, s2) ->
          wf_dict (out_trace o2) /\ clean s2 /\
          (exists n, Permutation n (view (out_trace o2)) /\ produces (target q2 (out_output o1) kws') n (out_output o2)) /\
          exists r, compose_tail o kws o1 o2 = Ok r).
      { intros o1 s1 H1. destruct (Ho1 _ _ H1) as (W1 & C1 & n1 & P1 & D1). split; [exact W1|]. split; [exact C1|]. split; [exists n1; auto|].
        destruct (quiet_after _ _ (Hqr _ _ H1)) as [Hq2 Hqt]. split; [exact Hq2|].
        destruct (IH2 (out_output o1) kws' s1 (Hw2 _ (produces_value _ _ _ D1)) Hk' C1 Hcl' Hq2) as [HE2 Ho2].
        split; [exact HE2|]. intros o2 s2 H2. destruct (Ho2 _ _ H2) as (W2 & C2 & Hn2). split; [exact W2|]. split; [exact C2|]. split; [exact Hn2|].
        destruct (Hqt _ _ H2 (compose_tail o kws o1 o2, s2)) as [r Hr]; [constructor|]. exists r. exact Hr. }
      split.
      + intros F HF. rewrite (E_teq _ _ _ Heq), E_after by exact Hq1. cbn [target]. fold kws'. rewrite WC_mseq.
        rewrite <- (HE1 (fun n1 o1 => WC none (target q2 o1 kws') (fun n2 o2 => F (n1 ++ n2) o2))).
        2:{ intros n n' o1 Hp. apply WC_ext. intros n2 o2. apply HF, Permutation_app_tail, Hp. }
        apply E_ext_out. intros [[o1|e] s1] H1; [|reflexivity]. cbn [fst snd].
        destruct (Hstep _ _ H1) as (W1 & C1 & _ & Hq2 & HE2 & Ho2). rewrite E_after by exact Hq2.
        unfold wt at 2, okR. cbn [fst]. rewrite <- HE2.
        2:{ intros n n' o2 Hp. apply HF, Permutation_app_head, Hp. }
        rewrite <- E_scale. apply E_ext_out. intros [[o2|e] s2] H2.
        2:{ destruct (Hq2 _ H2). discriminate. }
        destruct (Ho2 _ _ H2) as (W2 & C2 & _ & r & Hr). cbn [fst snd expect]. rewrite Hr.
        destruct (compose_tail_facts _ _ _ _ _ W1 W2 Hr) as (Et & Hd & Elw & Eo).
        unfold wt, okR. cbn [fst]. rewrite Et, Elw, Eo, (lw_add M ML), exp_plus, view_app.
        rewrite (HF (view (out_trace o2) ++ view (out_trace o1)) (view (out_trace o1) ++ view (out_trace o2))) by apply Permutation_app_comm. ring.
      + intros r s' Hr. apply (teq_outcome _ _ _ Heq) in Hr. apply outcome_tbind in Hr. destruct Hr as ([[o1|e] s1] & H1 & Hr); unfold after in Hr; cbn [fst snd] in Hr.
        2:{ apply outcome_leaf in Hr. discriminate. }
        destruct (Hstep _ _ H1) as (W1 & C1 & (n1 & P1 & D1) & Hq2 & HE2 & Ho2).
        apply outcome_tbind in Hr. destruct Hr as ([[o2|e] s2] & H2 & Hr); unfold after in Hr; cbn [fst snd] in Hr; apply outcome_leaf in Hr; [|discriminate].
        destruct (Ho2 _ _ H2) as (W2 & C2 & (n2 & P2 & D2) & r' & Hr'). rewrite Hr' in Hr. injection Hr as <- <-.
        destruct (compose_tail_facts _ _ _ _ _ W1 W2 Hr') as (Et & Hd & Elw & Eo).
        rewrite Et, Eo. split; [apply wf_app; assumption|]. split; [exact C2|]. exists (n1 ++ n2). split.
        * rewrite view_app. eapply Permutation_trans; [apply Permutation_app_comm|]. apply Permutation_app; assumption.
        * cbn [target]. eapply produces_seq; eassumption.
    - destruct Hwt as (-> & Hwq & C & HnC & Hok & Haq & Hap & Hsh).
      pose proof (wf_sub_kwargs (in_ix o) kws Hk) as Hk'. pose proof (clash_sub3 (in_ix o) kws Hcl) as Hcl'.
      pose proof (weightable_pure _ _ _ Hwq) as Hpq.
      set (kws' := sub_kwargs (in_ix o) kws) in *.
      assert (Hcp : is_compose p = false) by (destruct p; try reflexivity; destruct Hok).
      assert (Htarget : target (IPropose oid p q o None nr) c kws = kept p c kws').
      { cbn [target]. fold kws'. destruct p; reflexivity. }
      rewrite Htarget.
      pose proof (run_propose_eq oid p q o None nr c kws s Hk (clean_wf s Hc) Hcl Hcp) as Heq. fold kws' in Heq.
      pose proof (teq_quiet _ _ Heq Hq) as Hq'. destruct (quiet_after _ _ Hq') as [Hqq Hqr].
      destruct (IHq c kws' s Hwq Hk' Hc Hcl' Hqq) as [HEq Hoq].
      assert (Hstep : forall qo s1, outcome (run q c kws' s) (Ok qo, s1) ->
        let s1' := set_cond (oid_of p) (Some (out_trace qo)) s1 in
        wf_dict (out_trace qo) /\ clean s1 /\ wf_st s1' /\
        supplies C (out_trace qo) (target p c kws') /\
        (forall a, samples (target p c kws') a -> value_in (Some (out_trace qo)) a = shared C (view (out_trace qo)) a) /\
        quiet (run p c kws' s1') /\
        forall po s2, outcome (run p c kws' s1') (Ok po, s2) ->
          wf_dict (out_trace po) /\ clean (set_cond (oid_of p) None s2) /\
          lu (latent_in (out_trace po)) (view (out_trace qo)) = lu (fun a => mem a C) (view (out_trace qo)) /\
          exists r, propose_tail o p q None nr kws qo po = Ok r).
      { intros qo s1 H1 s1'. destruct (Hoq _ _ H1) as (Wq & C1 & nq & Pq & Dq).
        assert (W1 : wf_st s1') by (apply wf_set_cond; [apply clean_wf, C1|intros t [= <-]; exact Wq]).
        assert (HlC : forall a, In a C -> latent_in (out_trace qo) a = true).
        { intros a Ha. destruct (produces_always _ _ _ _ _ Dq Haq a Ha) as (v & l & Hin).
          apply (Permutation_in _ Pq) in Hin. apply in_map_iff in Hin. destruct Hin as ([b r] & E & Hin). cbn in E. injection E as -> Eo _ _.
          unfold latent_in. rewrite (In_dget a r) by assumption. rewrite Eo. reflexivity. }
        assert (HkC : forall a, In a (dkeys (out_trace qo)) -> samples (target p c kws') a -> In a C).
        { intros a Ha Hs. rewrite <- view_keys in Ha. apply in_map_iff in Ha. destruct Ha as ([b x] & E & Hin). cbn in E. subst b.
          apply (Permutation_in _ (Permutation_sym Pq)) in Hin. apply (Hsh a); [|exact Hs]. eapply produces_any; eassumption. }
        assert (HvC : forall a, samples (target p c kws') a -> value_in (Some (out_trace qo)) a <> None -> In a C).
        { intros a Hs Hv. apply HkC; [|exact Hs]. cbn in Hv. apply In_dkeys. destruct (dget a (out_trace qo)) as [r|]; [eauto|cbn in Hv; congruence]. }
        assert (Hsup : supplies C (out_trace qo) (target p c kws')).
        { split; [exact Wq|]. split; [exact HlC|]. intros a Hs Hv. apply HlC, HvC; assumption. }
        split; [exact Wq|]. split; [exact C1|]. split; [exact W1|]. split; [exact Hsup|].
        split.
        { intros a Hs. rewrite shared_dget by (rewrite view_keys; exact Wq). rewrite view_dget.
          destruct (mem a C) eqn:Em.
          - cbn. destruct (dget a (out_trace qo)); reflexivity.
          - destruct (value_in (Some (out_trace qo)) a) eqn:Ev; [|reflexivity]. exfalso. apply mem_not_In in Em. apply Em, HvC; [exact Hs|congruence]. }
        pose proof (Hqr _ _ H1) as Hqw. rewrite with_eq in Hqw by (intros t [= <-]; exact Wq).
        fold s1' in Hqw.
        assert (Hqp : quiet (run p c kws' s1')).
        { intros [[a|e] s2] Hx; [eexists; reflexivity|].
          destruct (Hqw (Err e, set_cond (oid_of p) None s2)) as [b Hb]; [|discriminate Hb].
          apply outcome_tbind. exists (Err e, set_cond (oid_of p) None s2). split; [apply outcome_tbind; exists (Err e, s2); split; [exact Hx|constructor]|constructor]. }
        split; [exact Hqp|]. intros po s2 H2.
        destruct (target_all C p c kws' s1' (out_trace qo) Hok Hk' W1 Hcl' (get_set_same _ _ _) Hsup Hqp) as [_ Hop].
        destruct (Hop _ _ H2) as (Sp & Wp & Pp). split; [exact Wp|]. split.
        { intros i. destruct (Nat.eq_dec i (oid_of p)) as [->|Hne]; [apply get_set_same|]. rewrite get_set_other by exact Hne.
          apply run_scoped in H2. apply (proj1 (proj2 H2)). unfold s1'. rewrite get_set_other by exact Hne. apply C1. }
        split.
        { apply lu_ext. intros a v l Hin. apply Bool.eq_iff_eq_true. rewrite mem_In. unfold latent_in. split.
          - intros Hl. apply HkC.
            + rewrite <- view_keys. apply in_map_iff. exists (a, (false, v, l)). auto.
            + destruct (dget a (out_trace po)) as [r|] eqn:Er; [|discriminate]. apply (produces_latent _ _ _ Pp a (rv_value r) (rv_logp r)).
              apply dget_In in Er. apply in_map_iff. exists (a, r). split; [|exact Er]. cbn. apply negb_true_iff in Hl. rewrite Hl. reflexivity.
          - intros Ha. destruct (produces_always _ _ _ _ _ Pp Hap a Ha) as (w & l' & Hi).
            apply in_map_iff in Hi. destruct Hi as ([b r] & E & Hi). cbn in E. injection E as -> Eo _ _.
            rewrite (In_dget a r) by assumption. rewrite Eo. reflexivity. }
        destruct (Hqw (propose_tail o p q None nr kws qo po, set_cond (oid_of p) None s2)) as [r Hr].
        { apply outcome_tbind. exists (Ok po, set_cond (oid_of p) None s2). split; [apply outcome_tbind; exists (Ok po, s2); split; [exact H2|constructor]|].
          unfold after. cbn [fst snd]. constructor. }
        exists r. exact Hr. }
      split.
      + intros F HF. rewrite (E_teq _ _ _ Heq), E_after by exact Hqq.
        rewrite <- (Int_WCm C p c kws' F Hok HnC Hap).
        rewrite <- (WC_divide C C (target q c kws') Haq Hpq HnC (fun a Ha => Ha) (fun x => WCm x p c kws' F)).
        2:{ intros x y Hxy. eapply WCm_sub; [exact Hok|]. intros a _. apply Hxy. }
        rewrite <- (HEq (fun n _ => / lu (fun a => mem a C) n * WCm (shared C n) p c kws' F)%R).
        2:{ intros n n' _ Hp. rewrite (lu_perm _ _ _ Hp). f_equal. eapply WCm_sub; [exact Hok|]. intros a _. apply shared_perm, Hp. }
        apply E_ext_out. intros [[qo|e] s1] H1; [|reflexivity]. cbn [fst snd].
        destruct (Hstep _ _ H1) as (Wq & C1 & W1 & Hsup & Hval & Hqp & Hpo). cbn zeta in *.
        rewrite with_eq by (intros t [= <-]; exact Wq). rewrite !E_tbind.
        set (s1' := set_cond (oid_of p) (Some (out_trace qo)) s1) in *.
        destruct (kept_facts C p c kws' s1' (out_trace qo) Hok Hk' W1 Hcl' (get_set_same _ _ _) Hsup Hqp) as [HEp Hkp].
        unfold wt at 2, okR. cbn [fst].
        rewrite <- (WCm_sub C p c kws' _ _ F Hok Hval), <- HEp, <- Rmult_assoc, <- E_scale.
        apply E_ext_out. intros [[po|e] s2] H2.
        2:{ destruct (Hqp _ H2). discriminate. }
        destruct (Hpo _ _ H2) as (Wp & C2 & Elu & r & Hr). cbn [expect fst snd after]. unfold after. cbn [fst snd]. rewrite Hr. cbn [expect].
        destruct (propose_tail_facts _ _ _ _ _ _ _ _ Wq Wp Hr) as (mt & mo & Hmp & Wm & Htr & Wr & Eo & Elw).
        destruct (Hkp _ _ _ _ H2 Hmp) as (Sm & _ & Hwtm). rewrite Hwtm.
        unfold wt, okR. cbn [fst]. rewrite Elw, Eo, detach_output_id, (detach_id M ML), (lw_add M ML), (lw_sub M ML).
        assert (Ev : view (out_trace r) = view mt) by (destruct nr; [rewrite Htr; reflexivity|apply rerun_view; assumption]).
        rewrite Ev, exp_plus. unfold Rminus. rewrite exp_plus, exp_Ropp, ew_logp_sum, Elu. ring.
      + intros r s' Hr. apply (teq_outcome _ _ _ Heq) in Hr. apply outcome_tbind in Hr. destruct Hr as ([[qo|e] s1] & H1 & Hr); unfold after in Hr; cbn [fst snd] in Hr.
        2:{ apply outcome_leaf in Hr. discriminate. }
        destruct (Hstep _ _ H1) as (Wq & C1 & W1 & Hsup & Hval & Hqp & Hpo). cbn zeta in *.
        rewrite with_eq in Hr by (intros t [= <-]; exact Wq).
        apply outcome_tbind in Hr. destruct Hr as (x & Hx & Hr). apply outcome_tbind in Hx. destruct Hx as ([[po|e] s2] & H2 & Hx); cbn [fst snd] in Hx; apply outcome_leaf in Hx; subst x; cbn [fst snd] in Hr; apply outcome_leaf in Hr; [|discriminate].
        destruct (Hpo _ _ H2) as (Wp & C2 & Elu & r' & Hr'). rewrite Hr' in Hr. injection Hr as <- <-.
        destruct (propose_tail_facts _ _ _ _ _ _ _ _ Wq Wp Hr') as (mt & mo & Hmp & Wm & Htr & Wr & Eo & Elw).
        destruct (kept_facts C p c kws' _ (out_trace qo) Hok Hk' W1 Hcl' (get_set_same _ _ _) Hsup Hqp) as [HEp Hkp].
        destruct (Hkp _ _ _ _ H2 Hmp) as (Sm & Pm & _). split; [exact Wr|]. split; [exact C2|].
        exists (view mt). split.
        * destruct nr; [rewrite Htr; apply Permutation_refl|rewrite (rerun_view _ _ Sm Htr); apply Permutation_refl].
        * rewrite Eo, detach_output_id. exact Pm.
  Qed.

  (** the same in the vocabulary of the specification *)
  Lemma WC_density m h : WC none m (fun n o => h (map (fun an : string * node => (fst an, snd (fst (snd an)))) n) o) = density_sum M m h.
  Proof.
    revert h. induction m as [o|e|a d value rep k IH|a r0 k IH|k IH|k IH|d rep shape k IH|key k IH|key v k IH]; intros h; cbn [WC density_sum]; try reflexivity.
    destruct value as [[v p]|].
    - rewrite <- (IH v (fun l o => h ((a, v) :: l) o)). reflexivity.
    - change (none a) with (@None T). cbv beta. apply (int_ext M ML). intros v. rewrite <- (IH v (fun l o => h ((a, v) :: l) o)). reflexivity.
  Qed.
  Theorem properly_weighted_spec t c kws s h :
    weightable M sp t c kws -> wf_dict kws -> clean s -> clash ["self"; "c"; "fn"] kws = false ->
    (forall e s', ~ raises (run t c kws) s e s') ->
    (forall l l' o, Permutation l l' -> h l o = h l' o) ->
    E (run t c kws s) (weighted M h) = density_sum M (target t c kws) h.
  Proof.
    intros Hwt Hk Hc Hcl Hr Hh. destruct (properly_weighted t c kws s Hwt Hk Hc Hcl) as [H _].
    - intros [[a|e] s'] Hx; [eexists; reflexivity|]. exfalso. exact (Hr e s' Hx).
    - rewrite <- WC_density, <- H.
      + apply E_ext_out. intros [[o|e] s'] _; [|reflexivity]. unfold wt, okR, weighted. cbn [fst].
        do 2 f_equal. unfold view, values. rewrite map_map. reflexivity.
      + intros n n' o Hp. apply Hh, Permutation_map, Hp.
  Qed.
End Proper.
