(** C85: the expected gradient of nvo_rkl against the gradient of the divergence, when the densities of
    the annealing path are learned. *)
From Coq Require Import Reals Lra Lia.
From Verif Require Import SpecKl Prop_Objectives Prop_FirstStep.
From Verif Require SpecPropagate Thm_Annealing Prop_Networks.
Notation expectation := SpecPropagate.expectation.
Notation covar := SpecPropagate.covar.
Close Scope R_scope.
Open Scope nat_scope.

(** ** Independent particles *)
Section Iid.
  Context {O : Type} (E : (O -> R) -> R) (HE : expectation E).
  Let eext := SpecPropagate.E_ext E HE. Let eadd := SpecPropagate.E_add E HE.
  Let escale := SpecPropagate.E_scale E HE. Let eone := SpecPropagate.E_one E HE.
  Lemma e_const c : E (fun _ => c) = c.
  Proof. rewrite (eext _ (fun _ => c * 1)%R) by (intros; ring). rewrite (escale c (fun _ => 1%R)), eone. ring. Qed.

  Lemma iid_ext_len n : forall f g, (forall xs, length xs = n -> f xs = g xs) -> iid E n f = iid E n g.
  Proof. induction n as [|n IH]; intros f g H; cbn [iid]; [apply H; reflexivity|]. apply eext. intros x. apply IH. intros xs Hl. apply H. cbn. congruence. Qed.
  Lemma iid_add n : forall f g, iid E n (fun xs => f xs + g xs)%R = (iid E n f + iid E n g)%R.
  Proof. induction n as [|n IH]; intros f g; cbn [iid]; [reflexivity|]. rewrite <- eadd. apply eext. intros x. apply IH. Qed.
  Lemma iid_scale n : forall c f, iid E n (fun xs => c * f xs)%R = (c * iid E n f)%R.
  Proof. induction n as [|n IH]; intros c f; cbn [iid]; [reflexivity|]. rewrite <- escale. apply eext. intros x. apply IH. Qed.
  Lemma iid_const n c : iid E n (fun _ => c) = c.
  Proof. induction n as [|n IH]; cbn [iid]; [reflexivity|]. rewrite (eext _ (fun _ => c)) by (intros; exact IH). apply e_const. Qed.

  Lemma iid_sum n h : iid E n (fun xs => rsum (map h xs)) = (INR n * E h)%R.
  Proof.
    induction n as [|n IH]; cbn [iid]; [unfold rsum; cbn [map fold_right INR]; ring|]. rewrite S_INR.
    rewrite (eext _ (fun x => h x + INR n * E h)%R).
    - rewrite eadd, e_const. ring.
    - intros x. cbn [map]. rewrite (iid_ext_len n _ (fun xs => h x + rsum (map h xs))%R) by (intros; apply rsum_cons).
      rewrite iid_add, iid_const, IH. reflexivity.
  Qed.
  Lemma iid_prod n a b : iid E n (fun xs => rsum (map a xs) * rsum (map b xs))%R
    = (INR n * E (fun x => a x * b x) + INR n * (INR n - 1) * (E a * E b))%R.
  Proof.
    induction n as [|n IH]; cbn [iid]; [unfold rsum; cbn [map fold_right INR]; ring|]. rewrite S_INR.
    rewrite (eext _ (fun x => a x * b x + (INR n * E b * a x + (INR n * E a * b x + (INR n * E (fun x => a x * b x) + INR n * (INR n - 1) * (E a * E b)))))%R).
    - rewrite !eadd, !e_const, (escale _ a), (escale _ b). ring.
    - intros x. cbn [map]. rewrite (iid_ext_len n _ (fun xs => a x * b x + (a x * rsum (map b xs) + (b x * rsum (map a xs) + rsum (map a xs) * rsum (map b xs))))%R)
        by (intros; rewrite !rsum_cons; ring).
      rewrite !iid_add, iid_const, !iid_scale, !iid_sum, IH. ring.
  Qed.
End Iid.

Lemma cov_uniform {O} (a b : O -> R) (xs : list O) : xs <> [] ->
  cov (uniform (map a xs)) (map a xs) (map b xs)
  = (1 / INR (length xs) * rsum (map (fun x => a x * b x)%R xs) + - (1 / (INR (length xs) * INR (length xs))) * (rsum (map a xs) * rsum (map b xs)))%R.
Proof.
  intros Hx. assert (Hn : (0 < INR (length xs))%R) by (apply lt_0_INR; destruct xs; [congruence|cbn; lia]).
  assert (Hd : forall k (h : O -> R) ys, dot (map (fun _ : R => k) (map a ys)) (map h ys) = (k * rsum (map h ys))%R).
  { intros k h. induction ys as [|y ys IH]; cbn [map]; [unfold dot; cbn; ring|]. rewrite dot_cons, rsum_cons, IH. ring. }
  assert (Hs : forall m (ys : list O), rsum (map (fun x => (a x - m) * b x)%R ys) = (rsum (map (fun x => a x * b x)%R ys) - m * rsum (map b ys))%R).
  { intros m. induction ys as [|y ys IH]; cbn [map]; [cbn; ring|]. rewrite !rsum_cons, IH. ring. }
  unfold cov, uniform. rewrite !map_length. set (k := (1 / INR (length xs))%R). rewrite Hd.
  replace (zip_with Rmult (map (fun y => y - k * rsum (map a xs))%R (map a xs)) (map b xs)) with (map (fun x => (a x - k * rsum (map a xs)) * b x)%R xs).
  2:{ generalize (k * rsum (map a xs))%R. intros m. clear. unfold zip_with. induction xs as [|y ys IH]; [reflexivity|]. cbn [map combine fst snd]. f_equal. exact IH. }
  rewrite (Hd k (fun x => (a x - k * rsum (map a xs)) * b x)%R), Hs. unfold k. field. lra.
Qed.

Lemma cov_expect {O} (E : (O -> R) -> R) (a b : O -> R) n : expectation E -> n <> 0 ->
  iid E n (fun xs => cov (uniform (map a xs)) (map a xs) (map b xs)) = ((INR n - 1) / INR n * covar E a b)%R.
Proof.
  intros HE Hn. assert (0 < INR n)%R by (apply lt_0_INR; lia).
  rewrite (iid_ext_len E HE n _ (fun xs => 1 / INR n * rsum (map (fun x => a x * b x)%R xs) + - (1 / (INR n * INR n)) * (rsum (map a xs) * rsum (map b xs)))%R).
  2:{ intros xs Hl. rewrite <- Hl. apply cov_uniform. intros ->. cbn in Hl. congruence. }
  rewrite iid_add by exact HE. rewrite !iid_scale by exact HE. rewrite iid_sum, iid_prod by exact HE. unfold covar. field. lra.
Qed.

(** ** The divergence and its gradient *)
Section Divergence.
  Context {O : Type} (X : list O) (HX : X <> []).
  Lemma total_add f g : total X (fun x => f x + g x)%R = (total X f + total X g)%R.
  Proof. unfold total. clear HX. induction X as [|x l IH]; cbn [map]; [cbn; ring|]. rewrite !rsum_cons, IH. ring. Qed.
  Lemma total_scale c f : total X (fun x => c * f x)%R = (c * total X f)%R.
  Proof. unfold total. clear HX. induction X as [|x l IH]; cbn [map]; [cbn; ring|]. rewrite !rsum_cons, IH. ring. Qed.
  Lemma total_ext f g : (forall x, f x = g x) -> total X f = total X g.
  Proof. intros H. unfold total. f_equal. apply map_ext. exact H. Qed.
  Lemma norm_pos l t : (0 < norm X l t)%R.
  Proof.
    unfold norm, total. destruct X as [|x l']; [congruence|]. cbn [map]. rewrite rsum_cons. pose proof (exp_pos (l x t)).
    assert (0 <= rsum (map (fun y => exp (l y t)) l'))%R; [|lra]. clear. induction l' as [|y l' IH]; cbn [map]; [cbn; lra|].
    rewrite rsum_cons. pose proof (exp_pos (l y t)). lra.
  Qed.
  Lemma mean_expectation l t : expectation (mean X l t).
  Proof.
    constructor; unfold mean.
    - intros f g H. apply total_ext. intros x. rewrite H. reflexivity.
    - intros f g. rewrite <- total_add. apply total_ext. intros x. ring.
    - intros c f. rewrite <- total_scale. apply total_ext. intros x. ring.
    - unfold mass. rewrite (total_ext _ (fun x => / norm X l t * exp (l x t))%R) by (intros; unfold Rdiv; ring).
      rewrite total_scale. fold (norm X l t). pose proof (norm_pos l t). field. lra.
  Qed.
  Lemma derive_total (f : O -> R -> R) g t : (forall x, derivable_pt_lim (f x) t (g x)) -> derivable_pt_lim (fun t => total X (fun x => f x t)) t (total X g).
  Proof.
    intros H. unfold total. apply (derive_ext (fun u => rsum (map (fun h => h u) (map f X)))); [intros u; rewrite map_map; reflexivity|].
    apply derive_sum. clear HX. induction X; cbn [map]; constructor; auto.
  Qed.
  Lemma derive_norm l dl t : (forall x, derivable_pt_lim (l x) t (dl x)) ->
    derivable_pt_lim (fun u => ln (norm X l u)) t (mean X l t dl).
  Proof.
    intros H. pose proof (norm_pos l t) as Hp. eapply derive_eq.
    - apply (derivable_pt_lim_comp (fun u => norm X l u) ln); [|apply derivable_pt_lim_ln; exact Hp].
      apply derive_total. intros x. apply derive_exp, H.
    - cbv beta. unfold mean. rewrite <- total_scale. apply total_ext. intros x. unfold mass. field. lra.
  Qed.
  Lemma ln_mass l t x : ln (mass X l t x) = (l x t - ln (norm X l t))%R.
  Proof.
    pose proof (norm_pos l t). unfold mass, Rdiv. rewrite ln_mult, ln_exp, ln_Rinv; [ring|assumption|apply exp_pos|apply Rinv_0_lt_compat; assumption].
  Qed.
  Lemma derive_mass l dl t x : (forall x, derivable_pt_lim (l x) t (dl x)) ->
    derivable_pt_lim (fun u => mass X l u x) t (mass X l t x * (dl x - mean X l t dl))%R.
  Proof.
    intros H. apply (derive_ext (fun u => exp (l x u - ln (norm X l u)))).
    - intros u. rewrite <- ln_mass. apply exp_ln. unfold mass. apply Rdiv_lt_0_compat; [apply exp_pos|apply norm_pos].
    - eapply derive_eq; [apply derive_exp, derive_sub; [apply H|apply derive_norm; exact H]|].
      cbv beta. rewrite <- ln_mass, exp_ln; [reflexivity|]. unfold mass. apply Rdiv_lt_0_compat; [apply exp_pos|apply norm_pos].
  Qed.

  Lemma kl_gradient (s : step O) t da db :
    (forall x, derivable_pt_lim (prop s x) t (da x)) -> (forall x, derivable_pt_lim (targ s x) t (db x)) ->
    derivable_pt_lim (kl X s) t
      (- covar (mean X (prop s) t) (fun x => targ s x t - prop s x t) da - mean X (prop s) t db + mean X (targ s) t db)%R.
  Proof.
    intros Ha Hb. set (E := mean X (prop s) t). set (E' := mean X (targ s) t db).
    set (c := (ln (norm X (targ s) t) - ln (norm X (prop s) t))%R).
    eapply derive_eq.
    - apply (derive_ext (fun u => total X (fun x => mass X (prop s) u x * ((prop s x u - ln (norm X (prop s) u)) - (targ s x u - ln (norm X (targ s) u))))%R)).
      { intros u. unfold kl. apply total_ext. intros x. rewrite !ln_mass. reflexivity. }
      apply (derive_total _ (fun x => mass X (prop s) t x * ((da x - E da) * (prop s x t - targ s x t + c) + (da x - E da - (db x - E'))))%R).
      intros x. eapply derive_eq; [apply (derive_mul (fun u => mass X (prop s) u x)); [apply derive_mass; exact Ha|]|].
      { apply (derive_sub (fun u => prop s x u - ln (norm X (prop s) u))%R (fun u => targ s x u - ln (norm X (targ s) u))%R).
        - apply (derive_sub (prop s x)); [apply Ha|apply derive_norm; exact Ha].
        - apply (derive_sub (targ s x)); [apply Hb|apply derive_norm; exact Hb]. }
     
      fold E E'. unfold c. ring.
    - fold (mean X (prop s) t (fun x => (da x - E da) * (prop s x t - targ s x t + c) + (da x - E da - (db x - E')))%R). fold E.
      pose proof (mean_expectation (prop s) t) as HE. fold E in HE.
      destruct HE as [eext eadd escale eone].
      set (lv := fun x => (targ s x t - prop s x t)%R). change (covar E lv da) with (E (fun x => lv x * da x) - E lv * E da)%R.
      rewrite (eext _ (fun x => (-1) * (lv x * da x) + (E da * lv x + ((c + 1) * da x + ((-1) * db x + (E' - (c + 1) * E da) * 1))))%R) by (intros x; unfold lv; ring).
      rewrite !eadd, !escale, eone. ring.
  Qed.
End Divergence.

(** The gradient a user of the sampler trains with is meant to be this one. *)
Theorem C85_divergence_gradient {O} (X : list O) (s : step O) t da db : X <> [] ->
  (forall x, derivable_pt_lim (prop s x) t (da x)) -> (forall x, derivable_pt_lim (targ s x) t (db x)) ->
  derivable_pt_lim (kl X s) t
    (- covar (mean X (prop s) t) (fun x => targ s x t - prop s x t) da - mean X (prop s) t db + mean X (targ s) t db)%R.
Proof. intros HX. exact (kl_gradient X HX s t da db). Qed.
Print Assumptions C85_divergence_gradient.

(** The estimate of the gradient of the target's log normalising constant: self-normalised importance
    sampling with the incremental weights. *)
Definition z2 {O} (s : step O) (t : R) (dto : O -> R) (xs : list O) : R :=
  (rsum (map (fun x => exp (targ s x t - prop s x t) * dto x) xs) / rsum (map (fun x => exp (targ s x t - prop s x t)) xs))%R.

(** C85. What nvo_rkl gives on [n] particles, and its expectation over independent particles: the
    parameters enter through the density moved from ([dfrom]), the density moved to ([dto]) and the reverse kernel
    ([drev]). Against C85_divergence_gradient the covariance is shrunk by the factor (n-1)/n, and
    the mean of [dfrom] - the gradient of the log normalising constant of the proposal - is added. *)
Section Expected.
  Context {O : Type} (X : list O) (s : step O) (t : R) (dfrom dto drev : O -> R).
  Hypotheses (HX : X <> []) (Hfrom : forall x, derivable_pt_lim (s_from s x) t (dfrom x))
    (Hto : forall x, derivable_pt_lim (s_to s x) t (dto x)) (Hrev : forall x, derivable_pt_lim (s_rev s x) t (drev x)).
  Let lv := fun x => (targ s x t - prop s x t)%R.
  Let db := fun x => (dto x + drev x)%R.

  Definition step_gradient (xs : list O) : R :=
    (1 / INR (length xs) * rsum (map (fun x => dfrom x - db x) xs)
     - cov (uniform (map lv xs)) (map lv xs) (map dfrom xs) + z2 s t dto xs)%R.

  Lemma step_gradient_is k rv xs : xs <> [] ->
    exists loss, nvo_rkl (particles s (Z.of_nat k) rv xs) = Ok loss /\ has_grad loss t (step_gradient xs).
  Proof.
    intros Hx. set (o := particles s (Z.of_nat k) rv xs).
    assert (N : gname_z (Z.of_nat k) <> gname_z (Z.of_nat k + 1)).
    { rewrite Prop_Networks.gname_z_nat, Thm_Annealing.gname_z_nat. intros H. apply Thm_Annealing.gname_inj in H. lia. }
    assert (N1 : String.eqb (gname_z (Z.of_nat k + 1)) (gname_z (Z.of_nat k)) = false) by (apply String.eqb_neq; congruence).
    assert (N2 : String.eqb (gname_z (Z.of_nat k)) (gname_z (Z.of_nat k + 1)) = false) by (apply String.eqb_neq; congruence).
    assert (F : forall (l : O -> R -> R) dl ys, (forall x, derivable_pt_lim (l x) t (dl x)) ->
      Forall2 (fun e g => has_grad e t g) (map (fun x => (fun _ u => l x u) : ad) ys) (map dl ys)).
    { intros l dl ys H. induction ys; cbn [map]; constructor; auto. exact (H a). }
    assert (Hdlv : forall x, derivable_pt_lim (fun u => targ s x u - prop s x u)%R t (- (dfrom x - db x))%R).
    { intros x. eapply derive_eq.
      - apply (derive_sub (fun u => s_to s x u + s_rev s x u)%R (fun u => s_from s x u + s_fwd s x)%R).
        + apply derive_add; [apply Hto|apply Hrev].
        + apply derive_add; [apply Hfrom|apply derive_const].
      - unfold db. ring. }
    destruct (C84_rkl_average_partial o t 0%R (mkNode rv (map (fun x => (fun _ u => s_from s x u) : ad) xs) (map (fun x => (fun _ u => s_from s x u) : ad) xs))
      (mkNode false (map (fun x => (fun _ u => s_to s x u) : ad) xs) (map (fun x => (fun _ u => s_to s x u) : ad) xs))
      (mkNode true (map (fun x => (fun _ _ => s_fwd s x) : ad) xs) (map (fun x => (fun _ _ => s_fwd s x) : ad) xs))
      (mkNode true (map (fun x => (fun _ u => s_rev s x u) : ad) xs) (map (fun x => (fun _ u => s_rev s x u) : ad) xs))
      (map (fun x => - (dfrom x - db x))%R xs) (map dfrom xs) (map dto xs)) as (loss & E & _ & G).
    - unfold o, particles. cbn [oa_ix oa_proposal dget]. rewrite String.eqb_refl. reflexivity.
    - unfold o, particles. cbn [oa_ix oa_target dget]. rewrite String.eqb_refl. reflexivity.
    - unfold o, particles. cbn [oa_ix oa_proposal dget]. rewrite N1, String.eqb_refl. reflexivity.
    - unfold o, particles. cbn [oa_ix oa_target dget]. rewrite N2, String.eqb_refl. reflexivity.
    - cbn [o particles oa_lv]. rewrite map_length. destruct xs; [congruence|discriminate].
    - cbn [o particles oa_lv oa_lw]. rewrite !map_length. reflexivity.
    - cbn [o particles oa_lw]. intros e (x & <- & _)%in_map_iff. reflexivity.
    - cbn [o particles oa_lv n_lp]. rewrite !map_length. reflexivity.
    - cbn [o particles oa_lv n_nrep]. rewrite !map_length. reflexivity.
    - cbn [o particles oa_lv]. apply (F (fun x u => targ s x u - prop s x u)%R _ xs Hdlv).
    - cbn [n_lp]. apply F, Hfrom.
    - cbn [n_nrep]. apply F, Hto.
    - exists loss. split; [exact E|]. eapply derive_eq; [exact G|]. cbn [n_rv o particles oa_lv oa_lw]. rewrite !map_length, map_map.
      unfold step_gradient. change (map (fun x : O => value (fun _ t0 : R => (targ s x t0 - prop s x t0)%R) t) xs) with (map lv xs).
      assert (E1 : rsum (map (fun x => - (dfrom x - db x))%R xs) = (- rsum (map (fun x => dfrom x - db x)%R xs))%R).
      { clear. induction xs as [|x xs IH]; cbn [map]; [unfold rsum; cbn [fold_right]; ring|]. rewrite !rsum_cons, IH. ring. }
      rewrite E1. clear E1.
      assert (E2 : dot (nweights t (zip_with dadd (map (fun _ : O => dconst 0) xs) (map (fun x : O => (fun _ u : R => targ s x u - prop s x u)%R : ad) xs))) (map dto xs) = z2 s t dto xs).
      { unfold z2, nweights.
        assert (M : forall (h : ad -> R), map h (zip_with dadd (map (fun _ : O => dconst 0) xs) (map (fun x : O => (fun _ u : R => targ s x u - prop s x u)%R : ad) xs))
                    = map (fun x => h (dadd (dconst 0) (fun _ u => targ s x u - prop s x u)%R)) xs).
        { intros h. unfold zip_with. clear. induction xs as [|x xs IH]; [reflexivity|]. cbn [map combine fst snd]. f_equal. exact IH. }
        rewrite !M. unfold value, dadd, dconst.
        rewrite (map_ext (fun x => exp (0 + (targ s x t - prop s x t)))%R (fun x => exp (targ s x t - prop s x t))%R) by (intros; f_equal; ring).
        generalize (rsum (map (fun x : O => exp (targ s x t - prop s x t)) xs)). intros z. clear.
        induction xs as [|x xs IH]; cbn [map]; [unfold dot, zip_with, rsum, Rdiv; cbn [map combine fold_right]; ring|].
        rewrite dot_cons, rsum_cons, IH. rewrite Rplus_0_l. unfold Rdiv. ring. }
      rewrite E2. clear. unfold Rdiv. ring.
  Qed.

  Lemma step_gradient_mean n : n <> 0 ->
    iid (mean X (prop s) t) n step_gradient
    = (mean X (prop s) t dfrom - mean X (prop s) t db - (INR n - 1) / INR n * covar (mean X (prop s) t) lv dfrom
       + iid (mean X (prop s) t) n (z2 s t dto))%R.
  Proof.
    intros Hn. pose proof (mean_expectation X HX (prop s) t) as HE. set (E := mean X (prop s) t) in *.
    assert (0 < INR n)%R by (apply lt_0_INR; lia).
    rewrite (iid_ext_len E HE n _ (fun xs => 1 / INR n * rsum (map (fun x => dfrom x - db x) xs) + ((-1) * cov (uniform (map lv xs)) (map lv xs) (map dfrom xs) + z2 s t dto xs))%R).
    2:{ intros xs Hl. unfold step_gradient. rewrite Hl. ring. }
    rewrite !iid_add, !iid_scale by exact HE. rewrite iid_sum, cov_expect by (exact HE || exact Hn).
    rewrite (SpecPropagate.E_ext E HE _ (fun x => dfrom x + (-1) * db x)%R) by (intros; ring).
    rewrite (SpecPropagate.E_add E HE), (SpecPropagate.E_scale E HE (-1) db). field. lra.
  Qed.
End Expected.

Theorem C85_expected_gradient {O} (X : list O) (s : step O) (t : R) (dfrom dto drev : O -> R) (k : nat) (rv : bool) (n : nat) :
  X <> [] -> n <> 0 ->
  (forall x, derivable_pt_lim (s_from s x) t (dfrom x)) ->
  (forall x, derivable_pt_lim (s_to s x) t (dto x)) ->
  (forall x, derivable_pt_lim (s_rev s x) t (drev x)) ->
  let E := mean X (prop s) t in
  exists G : list O -> R,
    (forall xs, length xs = n -> exists loss, nvo_rkl (particles s (Z.of_nat k) rv xs) = Ok loss /\ has_grad loss t (G xs)) /\
    iid E n G = (E dfrom - E (fun x => dto x + drev x) - (INR n - 1) / INR n * covar E (fun x => targ s x t - prop s x t) dfrom
                 + iid E n (z2 s t dto))%R.
Proof.
  intros HX Hn H1 H2 H3 E. exists (step_gradient s t dfrom dto drev). split.
  - intros xs Hl. apply (step_gradient_is s t dfrom dto drev H1 H2 H3). intros ->. cbn in Hl. congruence.
  - apply (step_gradient_mean X s t dfrom dto drev HX n Hn).
Qed.
Print Assumptions C85_expected_gradient.

(** The property holds when only the reverse kernels are learned: the densities do not depend on the
    parameter, and the kernel is normalised, so that the target's normalising constant does not either. *)
Theorem C85_unbiased_partial {O} (X : list O) (s : step O) (t : R) (drev : O -> R) (k : nat) (rv : bool) (n : nat) :
  X <> [] -> n <> 0 ->
  (forall x u, s_from s x u = s_from s x t) -> (forall x u, s_to s x u = s_to s x t) ->
  (forall x, derivable_pt_lim (s_rev s x) t (drev x)) -> (forall u, norm X (targ s) u = norm X (targ s) t) ->
  exists G : list O -> R,
    (forall xs, length xs = n -> exists loss, nvo_rkl (particles s (Z.of_nat k) rv xs) = Ok loss /\ has_grad loss t (G xs)) /\
    derivable_pt_lim (kl X s) t (iid (mean X (prop s) t) n G).
Proof.
  intros HX Hn H1 H2 H3 H4.
  assert (D1 : forall x, derivable_pt_lim (s_from s x) t 0%R) by (intros x; apply (derive_ext (fun _ => s_from s x t)); [intros u; symmetry; apply H1|apply derive_const]).
  assert (D2 : forall x, derivable_pt_lim (s_to s x) t 0%R) by (intros x; apply (derive_ext (fun _ => s_to s x t)); [intros u; symmetry; apply H2|apply derive_const]).
  destruct (C85_expected_gradient X s t (fun _ => 0%R) (fun _ => 0%R) drev k rv n HX Hn D1 D2 H3) as (G & HG & EG).
  exists G. split; [exact HG|]. rewrite EG.
  pose proof (mean_expectation X HX (prop s) t) as HE.
  eapply derive_eq.
  - apply (C85_divergence_gradient X s t (fun _ => 0%R) drev HX).
    + intros x. unfold prop. eapply derive_eq; [apply derive_add; [apply D1|apply derive_const]|ring].
    + intros x. unfold targ. eapply derive_eq; [apply (derive_add (s_to s x) (s_rev s x)); [apply D2|apply H3]|ring].
  - assert (Ez : iid (mean X (prop s) t) n (z2 s t (fun _ => 0%R)) = 0%R).
    { rewrite (iid_ext_len _ HE n _ (fun _ => 0%R)); [apply iid_const; exact HE|]. intros xs _. unfold z2.
      replace (rsum (map (fun x : O => (exp (targ s x t - prop s x t) * 0)%R) xs)) with 0%R; [unfold Rdiv; ring|].
      clear. induction xs as [|x xs IH]; [reflexivity|]. cbn [map]. rewrite rsum_cons, <- IH. ring. }
    assert (Ep : mean X (targ s) t drev = 0%R).
    { assert (Hd : forall x, derivable_pt_lim (targ s x) t (drev x)).
      { intros x. unfold targ. eapply derive_eq; [apply (derive_add (s_to s x) (s_rev s x)); [apply D2|apply H3]|ring]. }
      eapply uniqueness_limite; [apply (derive_norm X HX (targ s) drev t Hd)|].
      apply (derive_ext (fun _ => ln (norm X (targ s) t))); [intros u; rewrite (H4 u); reflexivity|apply derive_const]. }
    rewrite Ez, Ep. unfold covar.
    rewrite (SpecPropagate.E_ext _ HE (fun w => (targ s w t - prop s w t) * 0)%R (fun _ => 0%R)) by (intros; ring).
    rewrite (SpecPropagate.E_ext _ HE (fun x => 0 + drev x)%R drev) by (intros; ring).
    rewrite (e_const _ HE). ring.
Qed.
Print Assumptions C85_unbiased_partial.

(** C85, as stated, is false, for every number of particles: two outcomes with densities e^t and 1 in the
    proposal, and 1 and 1 in the target. At t = 0 the two distributions are equal and the divergence
    is at its minimum, with gradient 0; the expected gradient of the loss is 1/2. *)
Definition C85_step : step bool := mkStep (fun (x : bool) (t : R) => if x then t else 0%R) (fun _ => 0%R) (fun _ _ => 0%R) (fun _ _ => 0%R).
Theorem C85_unbiased_refuted : forall (k : nat) (rv : bool) (n : nat), n <> 0 ->
  kl [true; false] C85_step 0%R = 0%R /\ derivable_pt_lim (kl [true; false] C85_step) 0%R 0%R /\
  exists G : list bool -> R,
    (forall xs, length xs = n -> exists loss, nvo_rkl (particles C85_step (Z.of_nat k) rv xs) = Ok loss /\ has_grad loss 0%R (G xs)) /\
    iid (mean [true; false] (prop C85_step) 0%R) n G = (1 / 2)%R.
Proof.
  intros k rv n Hn. set (X := [true; false]). assert (HX : X <> []) by discriminate.
  pose (da := fun x : bool => if x then 1%R else 0%R).
  assert (D1 : forall x, derivable_pt_lim (s_from C85_step x) 0%R (da x)).
  { intros [|]; cbn [C85_step s_from da]; [apply derivable_pt_lim_id|apply derive_const]. }
  assert (D0 : forall x : bool, derivable_pt_lim (fun _ : R => 0%R) 0%R 0%R) by (intros; apply derive_const).
  assert (Da : forall x, derivable_pt_lim (prop C85_step x) 0%R (da x)).
  { intros x. unfold prop. eapply derive_eq; [apply derive_add; [apply D1|apply derive_const]|ring]. }
  assert (Db : forall x, derivable_pt_lim (targ C85_step x) 0%R 0%R).
  { intros x. unfold targ. cbn [C85_step s_to s_rev]. apply derive_const. }
  assert (Hlv : forall x, (targ C85_step x 0 - prop C85_step x 0 = 0)%R) by (intros [|]; unfold targ, prop; cbn; ring).
  pose proof (mean_expectation X HX (prop C85_step) 0%R) as HE.
  assert (Hcov : forall f, covar (mean X (prop C85_step) 0%R) (fun x => targ C85_step x 0 - prop C85_step x 0)%R f = 0%R).
  { intros f. unfold covar. rewrite (SpecPropagate.E_ext _ HE (fun w => (targ C85_step w 0 - prop C85_step w 0) * f w)%R (fun _ => 0%R)) by (intros x; rewrite Hlv; ring).
    rewrite (SpecPropagate.E_ext _ HE (fun w => targ C85_step w 0 - prop C85_step w 0)%R (fun _ => 0%R)) by exact Hlv. rewrite (e_const _ HE). ring. }
  split; [|split].
  - unfold kl, total, mass, norm, total. unfold X. cbn [map]. unfold prop, targ. cbn [C85_step s_from s_fwd s_to s_rev].
    unfold rsum. cbn [fold_right]. rewrite !Rplus_0_r, exp_0. ring.
  - eapply derive_eq; [apply (C85_divergence_gradient X C85_step 0%R da (fun _ => 0%R) HX Da Db)|].
    rewrite Hcov, (e_const _ HE), (e_const _ (mean_expectation X HX (targ C85_step) 0%R)). ring.
  - destruct (C85_expected_gradient X C85_step 0%R da (fun _ => 0%R) (fun _ => 0%R) k rv n HX Hn D1 D0 D0) as (G & HG & EG).
    exists G. split; [exact HG|]. rewrite EG, Hcov.
    rewrite (SpecPropagate.E_ext _ HE (fun _ => 0 + 0)%R (fun _ => 0%R)) by (intros; ring). rewrite (e_const _ HE).
    assert (Ez : iid (mean X (prop C85_step) 0%R) n (z2 C85_step 0%R (fun _ => 0%R)) = 0%R).
    { rewrite (iid_ext_len _ HE n _ (fun _ => 0%R)); [apply iid_const; exact HE|]. intros xs _. unfold z2.
      replace (rsum (map (fun x : bool => (exp (targ C85_step x 0 - prop C85_step x 0) * 0)%R) xs)) with 0%R; [unfold Rdiv; ring|].
      clear. induction xs as [|x xs IH]; [reflexivity|]. cbn [map]. rewrite rsum_cons, <- IH. ring. }
    rewrite Ez. unfold mean, total, mass, norm, total, X, prop. cbn [map C85_step s_from s_fwd da]. unfold rsum. cbn [fold_right].
    rewrite !Rplus_0_r, exp_0. field. apply not_0_INR. exact Hn.
Qed.
Print Assumptions C85_unbiased_refuted.

(** A learned reverse kernel that meets the hypotheses of C85_unbiased_partial: it gives one of two
    outcomes the probability e^t / (1 + e^t); the proposal gives it 2/3. *)
Definition C85_rev : step bool :=
  mkStep (fun (x : bool) _ => if x then ln 2 else 0%R) (fun _ => 0%R) (fun _ _ => 0%R)
    (fun x t => (if x then t else 0) - ln (1 + exp t))%R.
Example C85_hypotheses :
  (forall x u, s_from C85_rev x u = s_from C85_rev x 0%R) /\ (forall x u, s_to C85_rev x u = s_to C85_rev x 0%R) /\
  (forall x, derivable_pt_lim (s_rev C85_rev x) 0%R (if x then 1 / 2 else - (1 / 2))%R) /\
  (forall u, norm [true; false] (targ C85_rev) u = norm [true; false] (targ C85_rev) 0%R).
Proof.
  assert (P : forall u, (0 < 1 + exp u)%R) by (intros u; pose proof (exp_pos u); lra).
  split; [reflexivity|]. split; [reflexivity|]. split.
  - assert (D : derivable_pt_lim (fun u => ln (1 + exp u))%R 0%R (1 / 2)%R).
    { eapply derive_eq; [apply (derivable_pt_lim_comp (fun u => 1 + exp u)%R ln); [apply derive_add; [apply derive_const|apply derivable_pt_lim_exp]|apply derivable_pt_lim_ln, P]|].
      cbv beta. rewrite exp_0. field. }
    intros [|]; cbn [C85_rev s_rev].
    + eapply derive_eq; [apply derive_sub; [apply derivable_pt_lim_id|exact D]|]. field.
    + eapply derive_eq; [apply derive_sub; [apply derive_const|exact D]|]. field.
  - assert (N : forall u, norm [true; false] (targ C85_rev) u = 1%R); [|intros u; rewrite !N; reflexivity].
    intros u. unfold norm, total, rsum, targ. cbn [map fold_right C85_rev s_to s_rev]. unfold Rminus.
    rewrite !Rplus_0_l, exp_plus, exp_Ropp, exp_ln by apply P. pose proof (P u). field. lra.
Qed.
(** ... and the gradient is not zero there: -1/6. *)
Example C85_case : derivable_pt_lim (kl [true; false] C85_rev) 0%R (- (1 / 6))%R.
Proof.
  destruct C85_hypotheses as (H1 & H2 & H3 & H4).
  eapply derive_eq.
  - apply (C85_divergence_gradient [true; false] C85_rev 0%R (fun _ => 0%R) (fun x => if x then 1 / 2 else - (1 / 2))%R); [discriminate| |].
    + intros x. unfold prop. cbn [C85_rev s_from s_fwd]. apply derive_const.
    + intros x. unfold targ. cbn [C85_rev s_to]. eapply derive_eq; [apply (derive_add (fun _ => 0%R)); [apply derive_const|apply H3]|ring].
  - unfold covar, SpecPropagate.covar, mean, total, mass, norm, total, rsum, prop, targ. cbn [map fold_right C85_rev s_from s_fwd s_to s_rev].
    unfold Rminus. rewrite !Rplus_0_l, !Rplus_0_r, !exp_0, !exp_ln, exp_Ropp, exp_ln by lra. field.
Qed.
