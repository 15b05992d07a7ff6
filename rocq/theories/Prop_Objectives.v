(** C45: the stop-gradient surrogates and the objectives built on them. *)
From Coq Require Import Reals Lra Lia Psatz.
From Verif Require Import Objectives BaseFacts SystematicFacts.
Close Scope R_scope.
Open Scope nat_scope.

(** the weights of self-normalised importance sampling, and an estimate with them *)
Definition nweights (t0 : R) (lw : list ad) : list R :=
  map (fun e => (exp (value e t0) / rsum (map (fun e' => exp (value e' t0)) lw))%R) lw.
Definition dot (w x : list R) : R := rsum (zip_with Rmult w x).

Lemma Forall2_length {A B} (P : A -> B -> Prop) l l' : Forall2 P l l' -> length l = length l'.
Proof. induction 1; cbn; congruence. Qed.
(** ** derivatives *)
Lemma derive_const c t : derivable_pt_lim (fun _ => c) t 0%R.
Proof. apply derivable_pt_lim_const. Qed.
Lemma derive_ext f g t l : (forall x, f x = g x) -> derivable_pt_lim f t l -> derivable_pt_lim g t l.
Proof. intros E H eps He. destruct (H eps He) as (d & Hd). exists d. intros h h0 Hh. rewrite <- !E. apply Hd; assumption. Qed.
Lemma derive_sub f g t a b : derivable_pt_lim f t a -> derivable_pt_lim g t b -> derivable_pt_lim (fun x => f x - g x)%R t (a - b)%R.
Proof. intros H1 H2. exact (derivable_pt_lim_minus f g t a b H1 H2). Qed.
Lemma derive_add f g t a b : derivable_pt_lim f t a -> derivable_pt_lim g t b -> derivable_pt_lim (fun x => f x + g x)%R t (a + b)%R.
Proof. intros H1 H2. exact (derivable_pt_lim_plus f g t a b H1 H2). Qed.
Lemma derive_mul f g t a b : derivable_pt_lim f t a -> derivable_pt_lim g t b -> derivable_pt_lim (fun x => f x * g x)%R t (a * g t + f t * b)%R.
Proof. intros H1 H2. exact (derivable_pt_lim_mult f g t a b H1 H2). Qed.
Lemma derive_neg f t a : derivable_pt_lim f t a -> derivable_pt_lim (fun x => - f x)%R t (- a)%R.
Proof. intros H. exact (derivable_pt_lim_opp f t a H). Qed.
Lemma derive_exp f t a : derivable_pt_lim f t a -> derivable_pt_lim (fun x => exp (f x)) t (exp (f t) * a)%R.
Proof. intros H. exact (derivable_pt_lim_comp f exp t a (exp (f t)) H (derivable_pt_lim_exp (f t))). Qed.
Lemma derive_sum (l : list (R -> R)) (g : list R) t :
  Forall2 (fun f a => derivable_pt_lim f t a) l g -> derivable_pt_lim (fun x => rsum (map (fun f => f x) l)) t (rsum g).
Proof.
  induction 1 as [|f a l g H _ IH]; [exact (derive_const 0 t)|].
  exact (derive_add f (fun x => rsum (map (fun f => f x) l)) t a (rsum g) H IH).
Qed.
Lemma derive_eq f t a b : derivable_pt_lim f t a -> a = b -> derivable_pt_lim f t b.
Proof. intros H <-. exact H. Qed.

(** ** sums *)
Lemma rsum_cons x l : rsum (x :: l) = (x + rsum l)%R.
Proof. reflexivity. Qed.
Lemma rsum_scal {A} (f : A -> R) c l : rsum (map (fun x => c * f x)%R l) = (c * rsum (map f l))%R.
Proof. induction l as [|x l IH]; cbn [map]; [cbn; ring|]. rewrite !rsum_cons, IH. ring. Qed.
Lemma rsum_scal_r {A} (f : A -> R) c l : rsum (map (fun x => f x * c)%R l) = (rsum (map f l) * c)%R.
Proof. induction l as [|x l IH]; cbn [map]; [cbn; ring|]. rewrite !rsum_cons, IH. ring. Qed.
Lemma rsum_add' {A} (f g : A -> R) l : rsum (map (fun x => f x + g x)%R l) = (rsum (map f l) + rsum (map g l))%R.
Proof. induction l as [|x l IH]; cbn [map]; [cbn; ring|]. rewrite !rsum_cons, IH. ring. Qed.
Lemma rsum_sub' {A} (f g : A -> R) l : rsum (map (fun x => f x - g x)%R l) = (rsum (map f l) - rsum (map g l))%R.
Proof. induction l as [|x l IH]; cbn [map]; [cbn; ring|]. rewrite !rsum_cons, IH. ring. Qed.
Lemma rsum_neg' {A} (f : A -> R) l : rsum (map (fun x => - f x)%R l) = (- rsum (map f l))%R.
Proof. induction l as [|x l IH]; cbn [map]; [cbn; ring|]. rewrite !rsum_cons, IH. ring. Qed.
Lemma exps_pos {A} (f : A -> R) l : l <> [] -> (0 < rsum (map (fun x => exp (f x)) l))%R.
Proof.
  intros H. destruct l as [|x l]; [congruence|]. cbn [map]. rewrite rsum_cons. clear H.
  assert (0 <= rsum (map (fun x => exp (f x)) l))%R.
  { induction l as [|y l IH]; cbn [map]; [cbn; lra|]. rewrite rsum_cons. pose proof (exp_pos (f y)). lra. }
  pose proof (exp_pos (f x)). lra.
Qed.
Lemma nweights_sum t0 lw : lw <> [] -> rsum (nweights t0 lw) = 1%R.
Proof.
  intros H. unfold nweights, Rdiv. rewrite (rsum_scal_r (fun e => exp (value e t0))). apply Rinv_r.
  pose proof (exps_pos (fun e => value e t0) lw H). lra.
Qed.
Lemma nweights_length t0 lw : length (nweights t0 lw) = length lw.
Proof. apply map_length. Qed.
Lemma dot_cons w ws x xs : dot (w :: ws) (x :: xs) = (w * x + dot ws xs)%R.
Proof. reflexivity. Qed.
Lemma dot_add : forall w x y, length x = length w -> length y = length w ->
  dot w (zip_with Rplus x y) = (dot w x + dot w y)%R.
Proof.
  induction w as [|a w IH]; intros [|b x] [|c y] H1 H2; try discriminate; [cbn; ring|].
  injection H1 as H1. injection H2 as H2. change (zip_with Rplus (b :: x) (c :: y)) with ((b + c)%R :: zip_with Rplus x y).
  rewrite !dot_cons, IH by assumption. ring.
Qed.
Lemma dot_const : forall w (c : R) x, length x = length w -> (forall y, In y x -> y = c) -> dot w x = (rsum w * c)%R.
Proof.
  induction w as [|a w IH]; intros c [|b x] H1 H; try discriminate; [cbn; ring|].
  injection H1 as H1. rewrite dot_cons, rsum_cons, (IH c); [|exact H1|intros; apply H; right; assumption].
  rewrite (H b) by (left; reflexivity). ring.
Qed.

(** value and gradient of an estimate whose weights are detached *)
Lemma softmax_at t0 t lw : map (fun w : ad => w t0 t) (dsoftmax (map ddetach lw)) = nweights t0 lw.
Proof.
  unfold dsoftmax, nweights. rewrite map_map, map_map. apply map_ext. intros e. unfold ddetach at 1, value at 1. f_equal.
  f_equal. rewrite map_map. reflexivity.
Qed.
Lemma bcast_same {A B C} (f : A -> B -> C) a b : length a = length b -> bcast f a b = zip_with f a b.
Proof. destruct a as [|x [|x' a]], b as [|y [|y' b]]; intros H; try discriminate; reflexivity. Qed.
Lemma softmax_length lw : length (dsoftmax lw) = length lw.
Proof. apply map_length. Qed.
Lemma mc_at xs lw t0 t : length xs = length lw ->
  estimate_mc xs lw t0 t = dot (map (fun w : ad => w t0 t) (dsoftmax lw)) (map (fun e : ad => e t0 t) xs).
Proof.
  intros Hl. unfold estimate_mc. rewrite bcast_same by (rewrite softmax_length; symmetry; exact Hl). clear Hl. unfold dsum, dot, zip_with. generalize (dsoftmax lw). intros ws. revert xs.
  induction ws as [|w ws IH]; intros [|x xs]; cbn [map combine]; try reflexivity. rewrite !rsum_cons, IH. reflexivity.
Qed.
Lemma mc_value t0 xs lw : length xs = length lw ->
  value (estimate_mc xs (map ddetach lw)) t0 = dot (nweights t0 lw) (map (fun e => value e t0) xs).
Proof. intros Hl. unfold value at 1. rewrite mc_at, softmax_at by (rewrite map_length; exact Hl). reflexivity. Qed.
Lemma mc_grad t0 xs lw gs : length xs = length lw -> Forall2 (fun e g => has_grad e t0 g) xs gs ->
  has_grad (estimate_mc xs (map ddetach lw)) t0 (dot (nweights t0 lw) gs).
Proof.
  intros Hl H. unfold has_grad. apply (derive_ext (fun t => dot (nweights t0 lw) (map (fun e : ad => e t0 t) xs))).
  { intros t. rewrite mc_at, softmax_at by (rewrite map_length; exact Hl). reflexivity. }
  clear Hl.
  generalize (nweights t0 lw). intros ws. revert ws. induction H as [|e g xs gs He H IH]; intros [|w ws];
    try exact (derive_const 0 t0).
  rewrite dot_cons. cbn [map]. apply (derive_ext (fun t => w * e t0 t + dot ws (map (fun e : ad => e t0 t) xs))%R).
  { intros t. rewrite dot_cons. reflexivity. }
  apply derive_add; [|apply IH]. eapply derive_eq; [apply derive_mul; [apply derive_const|exact He]|cbn beta; ring].
Qed.

(** C45. Whatever the expression: [_eval0] is zero and has its gradient; [_eval1] is one and has
    its gradient. *)
Theorem C45_eval0 (e : ad) (t0 g : R) : has_grad e t0 g -> value (eval0 e) t0 = 0%R /\ has_grad (eval0 e) t0 g.
Proof.
  intros H. split; [unfold value, eval0, dsub, ddetach; ring|].
  unfold has_grad, eval0, dsub, ddetach. eapply derive_eq; [apply derive_sub; [exact H|apply derive_const]|cbn beta; ring].
Qed.
Print Assumptions C45_eval0.
Theorem C45_eval1 (e : ad) (t0 g : R) : has_grad e t0 g -> value (eval1 e) t0 = 1%R /\ has_grad (eval1 e) t0 g.
Proof.
  intros H. destruct (C45_eval0 e t0 g H) as [Hv Hg]. unfold value in Hv. split.
  - unfold value, eval1, dexp. rewrite Hv. apply exp_0.
  - unfold has_grad, eval1, dexp. eapply derive_eq; [apply derive_exp, Hg|]. rewrite Hv, exp_0. ring.
Qed.
Print Assumptions C45_eval1.

(** [nvo_avo] is minus the average of the incremental log-weights, with the gradient of that. *)
Theorem C45_avo (o : out_ad) (t0 : R) (gs : list R) :
  Forall2 (fun e g => has_grad e t0 g) (oa_lv o) gs ->
  let S := INR (length (oa_lv o)) in
  value (nvo_avo o) t0 = (- (rsum (map (fun e => value e t0) (oa_lv o)) / S))%R /\
  has_grad (nvo_avo o) t0 (- (rsum gs / S))%R.
Proof.
  intros H. cbn zeta. unfold nvo_avo.
  replace (map (fun _ : ad => dconst 0) (oa_lv o)) with (map ddetach (map (fun _ : ad => dconst 0) (oa_lv o))) by (rewrite map_map; reflexivity).
  assert (Hw : forall xs : list R, length xs = length (oa_lv o) ->
    dot (nweights t0 (map (fun _ : ad => dconst 0) (oa_lv o))) (map Ropp xs) = (- (rsum xs / INR (length (oa_lv o))))%R).
  { intros xs Hl. unfold nweights. rewrite !map_map. unfold value, dconst. rewrite exp_0.
    assert (E : rsum (map (fun _ : ad => 1%R) (oa_lv o)) = INR (length (oa_lv o))).
    { generalize (oa_lv o). induction l as [|x l IH]; [reflexivity|]. cbn [map]. rewrite rsum_cons, IH. cbn [length]. rewrite S_INR. ring. }
    rewrite E. generalize (INR (length (oa_lv o))). intros c. revert xs Hl. generalize (oa_lv o).
    induction l as [|x l IH]; intros [|y xs] Hl; try discriminate; [unfold Rdiv; cbn; ring|].
    injection Hl as Hl. cbn [map]. rewrite dot_cons, IH, rsum_cons by exact Hl. unfold Rdiv. ring. }
  split.
  - rewrite mc_value, map_map by (rewrite !map_length; reflexivity). rewrite <- Hw by (rewrite map_length; reflexivity). rewrite map_map. reflexivity.
  - rewrite <- Hw by (symmetry; eapply Forall2_length; exact H). apply mc_grad; [rewrite !map_length; reflexivity|].
    clear Hw. induction H as [|e g l gs He H IH]; cbn [map]; constructor; [|exact IH]. exact (derive_neg _ _ _ He).
Qed.
Print Assumptions C45_avo.

(** ** nvo_rkl *)
Lemma dot_sub_const w x c : length x = length w -> rsum w = 1%R -> dot w (map (fun y => y - c)%R x) = (dot w x - c)%R.
Proof.
  intros Hl Hs. enough (E : dot w (map (fun y => y - c)%R x) = (dot w x - rsum w * c)%R) by (rewrite E, Hs; ring).
  clear Hs. revert x Hl. induction w as [|a w IH]; intros [|b x] Hl; try discriminate; [cbn; ring|].
  injection Hl as Hl. cbn [map]. rewrite !dot_cons, rsum_cons, IH by exact Hl. ring.
Qed.

Lemma dot_opp : forall w x, dot w (map Ropp x) = (- dot w x)%R.
Proof. induction w as [|a w IH]; intros [|b x]; cbn [map]; try (cbn; ring). rewrite !dot_cons, IH. ring. Qed.

(** What nvo_rkl computes.  [W]: the normalised incoming weights, [W'] those of the target;
    [lv]: the values of the incremental log-weights; [ldZ]: the log of the average incremental
    weight. *)
Definition rkl_value (W lv : list R) : R :=
  (ln (rsum (map exp lv) / INR (length lv)) - dot W lv)%R.
(** covariance of two statistics under normalised weights *)
Definition cov (W x y : list R) : R := dot W (zip_with Rmult (map (fun a => a - dot W x)%R x) y).

Section Rkl.
  Variables (o : out_ad) (t0 : R) (np nt nf nr : node_ad) (dlv dlp dnrep : list R).
  Let S := length (oa_lv o).
  Hypotheses (Hp : dget (gname_z (oa_ix o)) (oa_proposal o) = Some np)
    (Ht : dget (gname_z (oa_ix o + 1)) (oa_target o) = Some nt)
    (Hf : dget (gname_z (oa_ix o + 1)) (oa_proposal o) = Some nf)
    (Hr : dget (gname_z (oa_ix o)) (oa_target o) = Some nr)
    (HS : S <> 0) (Hw : length (oa_lw o) = S) (Hlp : length (n_lp np) = S) (Hnr : length (n_nrep nt) = S)
    (Gv : Forall2 (fun e g => has_grad e t0 g) (oa_lv o) dlv)
    (Gp : Forall2 (fun e g => has_grad e t0 g) (n_lp np) dlp)
    (Gt : Forall2 (fun e g => has_grad e t0 g) (n_nrep nt) dnrep).
  Let W := nweights t0 (oa_lw o).
  Let W' := nweights t0 (zip_with dadd (oa_lw o) (oa_lv o)).
  Let lv := map (fun e => value e t0) (oa_lv o).

  Lemma rkl_facts : exists loss, nvo_rkl o = Ok loss /\
    value loss t0 = rkl_value W lv /\
    has_grad loss t0 (- dot W dlv - cov W lv dlp + (if n_rv nt then 0 else dot W' dnrep))%R.
  Proof.
    unfold nvo_rkl, getitem. rewrite Hp, Ht, Hf, Hr. cbn [rbind].
    destruct (Nat.eqb_spec (length (oa_lv o)) 0) as [E|_]; [contradiction|].
    assert (Hfit : fits (map ddetach (oa_lw o)) (oa_lv o) = true) by (unfold fits; rewrite map_length, Hw; unfold S; rewrite Nat.eqb_refl; reflexivity).
    rewrite Hfit. cbn [negb]. eexists. split; [reflexivity|].
    set (ldZ := dsub _ (dconst (ln (INR (length (oa_lv o)))))).
    set (f := map (fun v => dneg (dsub v ldZ)) (oa_lv o)).
    set (lw := map ddetach (oa_lw o)).
    set (Z1 := if n_rv np then _ else _). set (Z2 := if n_rv nt then _ else _).
    set (base := estimate_mc (map ddetach f) lw).
    assert (HW : rsum W = 1%R).
    { apply nweights_sum. intros E. rewrite E in Hw. cbn in Hw. congruence. }
    assert (HlW : length W = S) by (unfold W; rewrite nweights_length; exact Hw).
    assert (HldZ : forall t, ldZ t0 t = ln (rsum (map exp lv) / INR S)).
    { intros t. unfold ldZ, dsub, dconst, dlogsumexp, lv. rewrite !map_map. unfold ddetach, value.
      symmetry. unfold Rdiv. rewrite ln_mult, ln_Rinv; [unfold S; ring| | |].
      - apply lt_0_INR. lia.
      - apply exps_pos. intros E. unfold S in HS. rewrite E in HS. contradiction.
      - apply Rinv_0_lt_compat, lt_0_INR. lia. }
    set (c := ln (rsum (map exp lv) / INR S)) in *.
    assert (Hbase : forall t, base t0 t = (c - dot W lv)%R).
    { intros t. unfold base. rewrite mc_at by (unfold f, lw; rewrite !map_length; symmetry; exact Hw). unfold lw. rewrite softmax_at. fold W. unfold f. rewrite !map_map.
      assert (E : map (fun x : ad => ddetach (dneg (dsub x ldZ)) t0 t) (oa_lv o) = map (fun y => - (y - c))%R lv).
      { unfold lv. rewrite map_map. apply map_ext. intros e. unfold ddetach, dneg, dsub, value. rewrite HldZ. reflexivity. }
      rewrite E, <- (map_map (fun y => y - c)%R Ropp), dot_opp, dot_sub_const; [ring| |exact HW].
      rewrite HlW. unfold lv. apply map_length. }
    assert (HgZ1 : has_grad Z1 t0 (if n_rv np then 0 else dot W dlp)%R).
    { unfold Z1. destruct (n_rv np); [exact (derive_const 0 t0)|]. apply mc_grad; [congruence|exact Gp]. }
    assert (HgZ2 : has_grad Z2 t0 (if n_rv nt then 0 else dot W' dnrep)%R).
    { unfold Z2. destruct (n_rv nt); [exact (derive_const 0 t0)|].
      rewrite bcast_same by (unfold lw; rewrite !map_length; exact Hw).
      replace (zip_with dadd lw (map ddetach (oa_lv o))) with (map ddetach (zip_with dadd (oa_lw o) (oa_lv o))).
      - apply mc_grad; [|exact Gt]. unfold zip_with. rewrite map_length, combine_length, Hnr, Hw. unfold S. lia.
      - unfold lw. clear. generalize (oa_lw o) (oa_lv o). induction l as [|x l IH]; intros [|y l']; try reflexivity.
        unfold zip_with in *. cbn [map combine fst snd]. rewrite IH. reflexivity. }
    set (gZ1 := if n_rv np then 0%R else _) in *. set (gZ2 := if n_rv nt then 0%R else _) in *.
    assert (Hkl : forall e lp g h, has_grad e t0 g -> has_grad lp t0 h ->
       let x := dmul (dsub (dneg (dsub e ldZ)) base) (eval1 (dsub lp Z1)) in
       value x t0 = (- (value e t0 - dot W lv))%R /\ has_grad x t0 (- g - (value e t0 - dot W lv) * (h - gZ1))%R).
    { intros e lp g h He Hh. cbn zeta. assert (Hs : has_grad (dsub lp Z1) t0 (h - gZ1)%R) by (apply derive_sub; assumption).
      destruct (C45_eval1 _ _ _ Hs) as [Hv Hg]. split.
      - unfold value at 1, dmul. change (eval1 (dsub lp Z1) t0 t0) with (value (eval1 (dsub lp Z1)) t0). rewrite Hv.
        unfold dsub, dneg. rewrite HldZ, Hbase. unfold value. ring.
      - eapply derive_eq.
        + apply derive_mul; [|exact Hg]. apply (derive_ext (fun t => - (e t0 t - c) - (c - dot W lv))%R).
          { intros t. unfold dsub, dneg. rewrite HldZ, Hbase. reflexivity. }
          apply derive_sub; [|apply derive_const]. apply derive_neg, derive_sub; [exact He|apply derive_const].
        + change (eval1 (dsub lp Z1) t0 t0) with (value (eval1 (dsub lp Z1)) t0). rewrite Hv.
          unfold dsub, dneg. rewrite HldZ, Hbase. unfold value. ring. }
    assert (Hl1 : length dlv = S) by (symmetry; eapply Forall2_length; exact Gv).
    assert (Hl2 : length dlp = S) by (rewrite <- Hlp; symmetry; eapply Forall2_length; exact Gp).
    assert (Hl3 : length lv = S) by (unfold lv; apply map_length).
    set (xs := zip_with (fun x lp => dmul (dsub x base) (eval1 (dsub lp Z1))) f (n_lp np)).
    set (m := dot W lv) in *.
    assert (Hxs : map (fun e => value e t0) xs = map (fun y => - (y - m))%R lv /\
       Forall2 (fun e g => has_grad e t0 g) xs
         (zip_with Rplus (map Ropp dlv) (zip_with Rmult (map (fun y => - (y - m))%R lv) (map (fun h => h - gZ1)%R dlp)))).
    { unfold xs, f, lv. clear - Hkl Gv Gp Hlp. unfold S in *.
      revert Gv Gp Hlp. generalize (oa_lv o) (n_lp np) dlv dlp.
      induction l as [|e l IH]; intros lps gs hs G1 G2 Hl; inversion G1; subst; [split; constructor|].
      destruct G2 as [|lp h lps hs Hh G2]; [discriminate|]. injection Hl as Hl.
      destruct (IH lps l' hs H3 G2 Hl) as [I1 I2]. destruct (Hkl e lp y h H1 Hh) as [K1 K2].
      unfold zip_with in *. cbn [map combine fst snd] in *. split.
      - rewrite I1, K1. reflexivity.
      - constructor; [|exact I2]. eapply derive_eq; [exact K2|]. ring. }
    destruct Hxs as [Hxv Hxg].
    destruct (C45_eval0 _ _ _ HgZ2) as [Hz Hzg].
    assert (Hlx : length xs = length (oa_lw o)).
    { unfold xs, f, zip_with. rewrite map_length, combine_length, map_length, Hlp, Hw. unfold S. lia. }
    split.
    - unfold value, dadd. change (eval0 Z2 t0 t0) with (value (eval0 Z2) t0). rewrite Hz, Hbase.
      change (estimate_mc xs lw t0 t0) with (value (estimate_mc xs lw) t0). unfold lw. rewrite mc_value, Hxv by exact Hlx. fold W.
      rewrite <- (map_map (fun y => y - m)%R Ropp), dot_opp, dot_sub_const by congruence.
      unfold rkl_value, c, m. rewrite Hl3. ring.
    - eapply derive_eq.
      + apply derive_add; [apply derive_add; [apply mc_grad; [exact Hlx|exact Hxg]|exact Hzg]|].
        apply (derive_ext (fun _ => c - m)%R); [intros; symmetry; apply Hbase|apply derive_const].
      + fold W. rewrite dot_add, dot_opp; [|rewrite map_length; congruence|].
        2:{ unfold zip_with. rewrite map_length, combine_length, !map_length. lia. }
        assert (E : dot W (zip_with Rmult (map (fun y => - (y - m))%R lv) (map (fun h => h - gZ1)%R dlp)) = (- cov W lv dlp)%R).
        { unfold cov. fold m.
          assert (A : forall (w : list R) x y, length x = length w -> length y = length w ->
             dot w (zip_with Rmult (map (fun y => - (y - m))%R x) (map (fun h => h - gZ1)%R y))
             = (- dot w (zip_with Rmult (map (fun a => a - m)%R x) y) + gZ1 * dot w (map (fun a => a - m)%R x))%R).
          { clear. induction w as [|a w IH]; intros [|b x] [|d y] H1 H2; try discriminate; [cbn; ring|].
            injection H1 as H1. injection H2 as H2. unfold zip_with in *. cbn [map combine fst snd]. rewrite !dot_cons, IH by assumption. ring. }
          rewrite A by congruence. rewrite dot_sub_const by congruence. fold m. ring. }
        rewrite E. ring.
  Qed.
End Rkl.

(** [nvo_rkl], whenever its four nodes exist: its value is the log of the average incremental
    weight minus the weighted average of the incremental log-weights; its gradient is minus the
    weighted average of their gradients, minus the covariance of the incremental log-weights
    with the gradients of the proposal's log-density, plus the gradient of the estimated log
    normaliser of the target. The log normaliser of the proposal drops out. *)
Theorem C45_rkl (o : out_ad) (t0 : R) (np nt nf nr : node_ad) (dlv dlp dnrep : list R) :
  let S := length (oa_lv o) in
  let W := nweights t0 (oa_lw o) in
  let W' := nweights t0 (zip_with dadd (oa_lw o) (oa_lv o)) in
  let lv := map (fun e => value e t0) (oa_lv o) in
  dget (gname_z (oa_ix o)) (oa_proposal o) = Some np ->
  dget (gname_z (oa_ix o + 1)) (oa_target o) = Some nt ->
  dget (gname_z (oa_ix o + 1)) (oa_proposal o) = Some nf ->
  dget (gname_z (oa_ix o)) (oa_target o) = Some nr ->
  S <> 0 -> length (oa_lw o) = S -> length (n_lp np) = S -> length (n_nrep nt) = S ->
  Forall2 (fun e g => has_grad e t0 g) (oa_lv o) dlv ->
  Forall2 (fun e g => has_grad e t0 g) (n_lp np) dlp ->
  Forall2 (fun e g => has_grad e t0 g) (n_nrep nt) dnrep ->
  exists loss, nvo_rkl o = Ok loss /\
    value loss t0 = rkl_value W lv /\
    has_grad loss t0 (- dot W dlv - cov W lv dlp + (if n_rv nt then 0 else dot W' dnrep))%R.
Proof. cbn zeta. intros. eapply rkl_facts; eassumption. Qed.
Print Assumptions C45_rkl.

(** With equal incoming weights (after resampling) the value is an estimate of a
    divergence: it is never negative. *)
Lemma ln_le_sub1 x : (0 < x)%R -> (ln x <= x - 1)%R.
Proof. intros H. pose proof (exp_ineq1_le (ln x)). rewrite exp_ln in H0 by exact H. lra. Qed.
Theorem C45_rkl_nonneg (W lv : list R) : lv <> [] -> W = map (fun _ => (1 / INR (length lv))%R) lv -> (0 <= rkl_value W lv)%R.
Proof.
  intros Hne ->. unfold rkl_value. set (n := INR (length lv)).
  assert (Hn : (0 < n)%R) by (apply lt_0_INR; destruct lv; [congruence|cbn; lia]).
  pose proof (exps_pos (fun x => x) lv Hne) as He. change (map (fun x => exp x) lv) with (map exp lv) in He.
  set (A := (rsum (map exp lv) / n)%R). assert (HA : (0 < A)%R) by (apply Rdiv_lt_0_compat; assumption).
  assert (E : dot (map (fun _ => (1 / n)%R) lv) lv = (rsum lv / n)%R).
  { clearbody n. clear - Hn. induction lv as [|x l IH]; [cbn; field; lra|]. cbn [map]. rewrite dot_cons, IH, rsum_cons. field. lra. }
  rewrite E.
  assert (H : (rsum lv <= n * ln A)%R).
  { assert (G : forall l, (rsum l - INR (length l) * ln A <= rsum (map exp l) / A - INR (length l))%R).
    { induction l as [|x l IH]; [cbn; unfold Rdiv; lra|]. cbn [map length]. rewrite !rsum_cons, S_INR.
      assert (x - ln A <= exp x / A - 1)%R.
      { replace (x - ln A)%R with (ln (exp x / A)); [apply ln_le_sub1, Rdiv_lt_0_compat; [apply exp_pos|exact HA]|].
        unfold Rdiv. rewrite ln_mult, ln_Rinv, ln_exp; [ring|exact HA|apply exp_pos|apply Rinv_0_lt_compat, HA]. }
      unfold Rdiv in *. lra. }
    specialize (G lv). fold n in G. assert (EA : rsum (map exp lv) = (A * n)%R) by (unfold A; field; apply Rgt_not_eq, Hn).
    rewrite EA in G. replace (A * n / A)%R with n in G by (field; apply Rgt_not_eq, HA). lra. }
  apply (Rmult_le_compat_r (/ n)) in H; [|left; apply Rinv_0_lt_compat, Hn].
  replace (n * ln A * / n)%R with (ln A) in H by (field; apply Rgt_not_eq, Hn). unfold Rdiv in *. lra.
Qed.
Print Assumptions C45_rkl_nonneg.

(** C53. [nvo_rkl_mod] never returns: when the four nodes exist it raises NameError. *)
Theorem C53_rkl_mod_refuted (o : out_ad) :
  (forall loss, nvo_rkl_mod o <> Ok loss) /\
  (forall np nt nf nr, dget (gname_z (oa_ix o)) (oa_proposal o) = Some np ->
     dget (gname_z (oa_ix o + 1)) (oa_target o) = Some nt ->
     dget (gname_z (oa_ix o + 1)) (oa_proposal o) = Some nf ->
     dget (gname_z (oa_ix o)) (oa_target o) = Some nr -> nvo_rkl_mod o = Err NameError).
Proof.
  unfold nvo_rkl_mod, getitem. split.
  - intros loss. destruct (dget _ _); [|discriminate]. cbn [rbind]. destruct (dget _ (oa_target o)); [|discriminate]. cbn [rbind].
    destruct (dget _ (oa_proposal o)); [|discriminate]. cbn [rbind]. destruct (dget _ (oa_target o)); discriminate.
  - intros np nt nf nr -> -> -> ->. reflexivity.
Qed.
Print Assumptions C53_rkl_mod_refuted.

(** [loss_is] of the Gibbs experiment: the loss so far plus, averaged over the batch, the weighted
    averages of minus the log-densities of proposal and target; the weights get no gradient. *)
Theorem C45_loss_is (t0 : R) (log_w log_q log_p : list (list ad)) (total : ad) (dq dp : list (list R)) (dt : R) :
  Forall2 (fun w q => length q = length w) log_w log_q -> Forall2 (fun w p => length p = length w) log_w log_p ->
  Forall2 (Forall2 (fun e g => has_grad e t0 g)) log_q dq -> Forall2 (Forall2 (fun e g => has_grad e t0 g)) log_p dp ->
  has_grad total t0 dt ->
  let avg (x : list (list R)) := (rsum (zip_with (fun lw r => dot (nweights t0 lw) (map Ropp r)) log_w x) / INR (length (combine log_w x)))%R in
  let values x := map (map (fun e => value e t0)) x in
  value (loss_is log_w log_q log_p total) t0 = (avg (values log_q) + avg (values log_p) + value total t0)%R /\
  has_grad (loss_is log_w log_q log_p total) t0 (avg dq + avg dp + dt)%R.
Proof.
  intros Lq Lp Gq Gp Gt. cbn zeta.
  assert (G : forall xs gs, Forall2 (fun w x => length x = length w) log_w xs -> Forall2 (Forall2 (fun e g => has_grad e t0 g)) xs gs ->
    value (weighted log_w xs) t0 = (rsum (zip_with (fun lw r => dot (nweights t0 lw) (map Ropp r)) log_w (map (map (fun e => value e t0)) xs))
        / INR (length (combine log_w (map (map (fun e => value e t0)) xs))))%R /\
    has_grad (weighted log_w xs) t0 (rsum (zip_with (fun lw r => dot (nweights t0 lw) (map Ropp r)) log_w gs) / INR (length (combine log_w gs)))%R).
  { intros xs gs Lx H. unfold weighted, dmean, value at 1. split.
    - unfold zip_with. rewrite map_length, !combine_length, map_length. f_equal. clear - Lx.
      induction Lx as [|l x lws xs El Lx IH]; try reflexivity. cbn [map combine fst snd]. rewrite !rsum_cons, IH. f_equal.
      change (estimate_mc (map dneg x) (map ddetach l) t0 t0) with (value (estimate_mc (map dneg x) (map ddetach l)) t0).
      rewrite mc_value, !map_map by (rewrite map_length; exact El). reflexivity.
    - unfold has_grad, zip_with. rewrite map_length.
      replace (length (combine log_w gs)) with (length (combine log_w xs)) by (rewrite !combine_length, (Forall2_length _ _ _ H); reflexivity).
      generalize (length (combine log_w xs)). intros k.
      apply (derive_ext (fun t => / INR k * rsum (map (fun f => f t) (map (fun p : list ad * list ad => fun t => estimate_mc (map dneg (snd p)) (map ddetach (fst p)) t0 t) (combine log_w xs))))%R).
      { intros t. rewrite !map_map. unfold Rdiv. ring. }
      eapply derive_eq; [apply derive_mul; [apply derive_const|]|].
      + apply (derive_sum _ (map (fun p => dot (nweights t0 (fst p)) (map Ropp (snd p))) (combine log_w gs))).
        clear - Lx H. revert gs H. induction Lx as [|l x lws xs El Lx IH]; intros gs H; inversion H as [|x' g xs' gs' Hx H']; subst; cbn [combine map]; constructor; [|apply IH; assumption].
        cbn [fst snd]. apply mc_grad; [rewrite map_length; exact El|]. clear - Hx. induction Hx; constructor; [|assumption]. exact (derive_neg _ _ _ H).
      + unfold Rdiv. ring. }
  destruct (G _ _ Lq Gq) as [G1 G2]. destruct (G _ _ Lp Gp) as [G3 G4]. split.
  - unfold loss_is, dadd, value at 1. rewrite <- G1, <- G3. reflexivity.
  - unfold loss_is, dadd. apply derive_add; [apply derive_add; assumption|exact Gt].
Qed.
Print Assumptions C45_loss_is.

(** a case: two particles, weights e^0 and e^t; the gradient of the first objective is -1/2 *)
Example C45_case :
  let o := mkOutAd 0 [dconst 0; dconst 0] [dconst 0; fun _ t => t] [] [] in
  value (nvo_avo o) 1%R = (- (1 / 2))%R /\ has_grad (nvo_avo o) 1%R (- (1 / 2))%R.
Proof.
  cbn zeta. destruct (C45_avo (mkOutAd 0 [dconst 0; dconst 0] [dconst 0; fun _ t => t] [] []) 1%R [0%R; 1%R]) as [H1 H2].
  - constructor; [exact (derive_const 0 _)|]. constructor; [apply derivable_pt_lim_id|constructor].
  - cbn [oa_lv length map] in *. split.
    + rewrite H1. unfold rsum, value, dconst. cbn. field.
    + eapply derive_eq; [exact H2|]. unfold rsum. cbn. field.
Qed.
Definition C45_node (rv : bool) : node_ad := mkNode rv [(fun _ t => - (t * t))%R; dconst 0] [dconst 0; fun _ t => t].
Example C45_rkl_case :
  let o := mkOutAd 0 [dconst 0; dconst 0] [dconst 0; fun _ t => t]
    [("g0", C45_node false); ("g1", C45_node true)] [("g1", C45_node false); ("g0", C45_node true)] in
  exists loss g, nvo_rkl o = Ok loss /\ value loss 0%R = 0%R /\ has_grad loss 0%R g.
Proof.
  cbn zeta.
  destruct (C45_rkl (mkOutAd 0 [dconst 0; dconst 0] [dconst 0; fun _ t => t]
    [("g0", C45_node false); ("g1", C45_node true)] [("g1", C45_node false); ("g0", C45_node true)]) 0%R
    (C45_node false) (C45_node false) (C45_node true) (C45_node true) [0%R; 1%R] [0%R; 0%R] [0%R; 1%R]) as (loss & H1 & H2 & H3);
    try reflexivity; try discriminate.
  - constructor; [exact (derive_const 0 _)|]. constructor; [apply derivable_pt_lim_id|constructor].
  - constructor; [|constructor; [exact (derive_const 0 _)|constructor]]. unfold has_grad.
    eapply derive_eq; [apply derive_neg, derive_mul; apply derivable_pt_lim_id|unfold id; cbn beta; ring].
  - constructor; [exact (derive_const 0 _)|]. constructor; [apply derivable_pt_lim_id|constructor].
  - eexists. eexists. split; [exact H1|]. split; [|exact H3]. rewrite H2.
    unfold rkl_value, nweights, dot, zip_with, value, dconst. cbn. rewrite exp_0.
    replace ((1 + (1 + 0)) / (1 + 1))%R with 1%R by field. rewrite ln_1. field.
Qed.
