(** Property C99: constant factors of densities and weights, and the order of the particles, drop
    out of the objectives. *)
From Coq Require Import Reals Lra Lia Permutation FunctionalExtensionality.
From Verif Require Import SpecScale BaseFacts SystematicFacts Thm_Resample Prop_Objectives.
Close Scope R_scope.

Local Ltac fext := let t0 := fresh "t0" in let t := fresh "t" in
  apply functional_extensionality; intros t0; apply functional_extensionality; intros t.

(** ** constant factors *)
Lemma raised_detach a l : map ddetach (map (raised a) l) = map (raised a) (map ddetach l).
Proof. rewrite !map_map. reflexivity. Qed.

Lemma exps_raised a l (t0 t : R) :
  rsum (map (fun e : ad => exp (e t0 t)) (map (raised a) l)) = (exp a * rsum (map (fun e : ad => exp (e t0 t)) l))%R.
Proof.
  rewrite map_map, <- rsum_scal. f_equal. apply map_ext. intros e. unfold raised. rewrite exp_plus. ring.
Qed.

Lemma softmax_raised a l : dsoftmax (map (raised a) l) = dsoftmax l.
Proof.
  unfold dsoftmax. rewrite map_map. apply map_ext_in. intros e He. fext. rewrite exps_raised. unfold raised. rewrite exp_plus.
  assert (Hl : l <> []) by (intros ->; destruct He).
  pose proof (exps_pos (fun e : ad => e t0 t) l Hl) as Hp. pose proof (exp_pos a). set (S := rsum _) in *. clearbody S. field. split; lra.
Qed.

Lemma mc_raised_weights a v l : estimate_mc v (map (raised a) l) = estimate_mc v l.
Proof. unfold estimate_mc. rewrite softmax_raised. reflexivity. Qed.

(** expressions that move alike have the same surrogates *)
Definition alike (e e' : ad) : Prop := forall t0 t, (e' t0 t - e' t0 t0 = e t0 t - e t0 t0)%R.
Lemma eval0_alike e e' : alike e e' -> eval0 e' = eval0 e.
Proof. intros H. fext. unfold eval0, dsub, ddetach. apply H. Qed.

Lemma detached_weights l w : In w (dsoftmax (map ddetach l)) -> forall t0 t, w t0 t = w t0 t0.
Proof. unfold dsoftmax. intros H t0 t. apply in_map_iff in H. destruct H as (e & <- & He). rewrite !map_map. apply in_map_iff in He. destruct He as (e0 & <- & _). reflexivity. Qed.

Lemma mc_raised_values c v l : alike (estimate_mc v (map ddetach l)) (estimate_mc (map (raised c) v) (map ddetach l)).
Proof.
  intros t0 t. unfold estimate_mc, dsum. pose proof (detached_weights l) as Hw. revert Hw. generalize (dsoftmax (map ddetach l)). intros ws Hw.
  assert (G1 : forall w v, (forall t0 t, w t0 t = w t0 t0) -> (rsum (map (fun e : ad => e t0 t) (map (dmul w) (map (raised c) v))) - rsum (map (fun e : ad => e t0 t0) (map (dmul w) (map (raised c) v)))
     = rsum (map (fun e : ad => e t0 t) (map (dmul w) v)) - rsum (map (fun e : ad => e t0 t0) (map (dmul w) v)))%R).
  { clear. intros w v H. induction v as [|x v IH]; [reflexivity|]. cbn [map]. rewrite !rsum_cons. unfold dmul at 1 3 5 7. unfold raised at 1 3. rewrite (H t0 t). lra. }
  assert (G2 : forall ws x, (forall w, In w ws -> forall t0 t, w t0 t = w t0 t0) ->
     (rsum (map (fun e : ad => e t0 t) (map (fun w => dmul w (raised c x)) ws)) - rsum (map (fun e : ad => e t0 t0) (map (fun w => dmul w (raised c x)) ws))
     = rsum (map (fun e : ad => e t0 t) (map (fun w => dmul w x) ws)) - rsum (map (fun e : ad => e t0 t0) (map (fun w => dmul w x) ws)))%R).
  { clear. intros ws x H. induction ws as [|w ws IH]; [reflexivity|]. cbn [map]. rewrite !rsum_cons.
    specialize (IH (fun w' H' => H w' (or_intror H'))). unfold dmul at 1 3 5 7. unfold raised at 1 3. rewrite (H w (or_introl eq_refl) t0 t). lra. }
  assert (G3 : forall ws v, (forall w, In w ws -> forall t0 t, w t0 t = w t0 t0) ->
     (rsum (map (fun e : ad => e t0 t) (zip_with dmul ws (map (raised c) v))) - rsum (map (fun e : ad => e t0 t0) (zip_with dmul ws (map (raised c) v)))
     = rsum (map (fun e : ad => e t0 t) (zip_with dmul ws v)) - rsum (map (fun e : ad => e t0 t0) (zip_with dmul ws v)))%R).
  { clear. induction ws as [|w ws IH]; intros [|x v] H; try reflexivity. specialize (IH v (fun w' H' => H w' (or_intror H'))).
    unfold zip_with in *. cbn [map combine fst snd]. rewrite !rsum_cons. unfold dmul at 1 3 5 7. unfold raised at 1 3. rewrite (H w (or_introl eq_refl) t0 t). lra. }
  destruct ws as [|w [|w' ws]].
  - destruct v as [|x [|y v]]; cbn [map bcast]; try reflexivity.
  - cbn [bcast]. apply G1, Hw. left. reflexivity.
  - destruct v as [|x [|y v]]; [reflexivity| |].
    + cbn [map bcast]. apply (G2 (w :: w' :: ws) x Hw).
    + exact (G3 (w :: w' :: ws) (x :: y :: v) Hw).
Qed.

Lemma bcast_raised a c x y : bcast dadd (map (raised a) x) (map (raised c) y) = map (raised (a + c)) (bcast dadd x y).
Proof.
  assert (E : forall e e', dadd (raised a e) (raised c e') = raised (a + c) (dadd e e')) by (intros; fext; unfold dadd, raised; lra).
  assert (Z : forall x y, zip_with dadd (map (raised a) x) (map (raised c) y) = map (raised (a + c)) (zip_with dadd x y)).
  { induction x0 as [|e x0 IH]; intros [|e' y0]; try reflexivity. unfold zip_with in *. cbn [map combine fst snd]. rewrite E, IH. reflexivity. }
  destruct x as [|e [|e2 x]].
  - destruct y as [|e' [|e3 y]]; reflexivity.
  - cbn [map bcast]. rewrite !map_map. apply map_ext. intros. apply E.
  - destruct y as [|e' [|e3 y]]; [reflexivity| |].
    + cbn [map bcast]. rewrite !E. f_equal. f_equal. rewrite !map_map. apply map_ext. intros. apply E.
    + exact (Z (e :: e2 :: x) (e' :: e3 :: y)).
Qed.

Lemma rescaled_get k d d' : rescaled_trace d d' ->
  match dget k d, dget k d' with Some n, Some n' => rescaled_node n n' | None, None => True | _, _ => False end.
Proof.
  induction 1 as [|[k0 n] [k1 n'] d d' [E H] _ IH]; cbn [dget]; [exact I|]. cbn [fst] in E. subst k1.
  destruct (String.eqb k k0); [exact H|exact IH].
Qed.

(** C99. The loss of nvo_rkl, as a function of the parameters, does not depend on constant factors:
    neither of the incoming weights, nor of the incremental weights, nor of any density. *)
Theorem C99_rkl_rescaled (c : R) (o o' : out_ad) : rescaled c o o' -> nvo_rkl o' = nvo_rkl o.
Proof.
  intros (Ei & (a & Ea) & Ev & Rp & Rt). unfold nvo_rkl, getitem. rewrite Ei, Ea, Ev, raised_detach, raised_detach.
  pose proof (rescaled_get (gname_z (oa_ix o)) _ _ Rp) as H1. destruct (dget (gname_z (oa_ix o)) (oa_proposal o)) as [np|], (dget (gname_z (oa_ix o)) (oa_proposal o')) as [np'|]; try contradiction; [|reflexivity].
  pose proof (rescaled_get (gname_z (oa_ix o + 1)) _ _ Rt) as H2. cbn [rbind].
  destruct (dget (gname_z (oa_ix o + 1)) (oa_target o)) as [nt|], (dget (gname_z (oa_ix o + 1)) (oa_target o')) as [nt'|]; try contradiction; [|reflexivity].
  pose proof (rescaled_get (gname_z (oa_ix o + 1)) _ _ Rp) as H3. cbn [rbind].
  destruct (dget (gname_z (oa_ix o + 1)) (oa_proposal o)) as [nf|], (dget (gname_z (oa_ix o + 1)) (oa_proposal o')) as [nf'|]; try contradiction; [|reflexivity].
  pose proof (rescaled_get (gname_z (oa_ix o)) _ _ Rt) as H4. cbn [rbind].
  destruct (dget (gname_z (oa_ix o)) (oa_target o)) as [nr|], (dget (gname_z (oa_ix o)) (oa_target o')) as [nr'|]; try contradiction; [|reflexivity].
  cbn [rbind]. rewrite !map_length. destruct (Nat.eqb_spec (length (oa_lv o)) 0) as [|HS]; [reflexivity|].
  assert (Efits : fits (map (raised a) (map ddetach (oa_lw o))) (map (raised c) (oa_lv o)) = fits (map ddetach (oa_lw o)) (oa_lv o)).
  { unfold fits. rewrite !map_length. reflexivity. }
  rewrite Efits. destruct (negb _); [reflexivity|].
  destruct H1 as (Erp & d & Elp & _). destruct H2 as (Ert & e & _ & Enr). rewrite Erp, Ert, Elp, Enr.
  set (lw := map ddetach (oa_lw o)).
  set (ldZ' := dsub (dlogsumexp (map (raised c) _)) _). set (ldZ := dsub (dlogsumexp (map ddetach (oa_lv o))) _).
  assert (EZ : ldZ' = raised c ldZ).
  { fext. change (raised c ldZ t0 t) with (ldZ t0 t + c)%R. unfold ldZ', ldZ, dsub, dlogsumexp, dconst. rewrite exps_raised, ln_mult, ln_exp; [unfold ad; ring|apply exp_pos|].
    apply exps_pos. intros E. apply (f_equal (@length _)) in E. rewrite map_length in E. cbn in E. congruence. }
  assert (Ef : map (fun v => dneg (dsub v ldZ')) (map (raised c) (oa_lv o)) = map (fun v => dneg (dsub v ldZ)) (oa_lv o)).
  { rewrite map_map. apply map_ext. intros v. fext. rewrite EZ. unfold dneg, dsub, raised. ring. }
  rewrite Ef. set (f := map (fun v => dneg (dsub v ldZ)) (oa_lv o)). rewrite !mc_raised_weights. fold lw.
  assert (EZ2 : eval0 (if n_rv nt then dconst 0 else estimate_mc (map (raised e) (n_nrep nt)) (bcast dadd (map (raised a) lw) (map (raised c) (map ddetach (oa_lv o)))))
     = eval0 (if n_rv nt then dconst 0 else estimate_mc (n_nrep nt) (bcast dadd lw (map ddetach (oa_lv o))))).
  { destruct (n_rv nt); [reflexivity|]. rewrite bcast_raised, mc_raised_weights. apply eval0_alike.
    assert (B : bcast dadd lw (map ddetach (oa_lv o)) = map ddetach (bcast dadd (oa_lw o) (oa_lv o))).
    { unfold lw. generalize (oa_lw o) (oa_lv o). clear. intros x y.
      assert (Z : forall x y : list ad, zip_with dadd (map ddetach x) (map ddetach y) = map ddetach (zip_with dadd x y)).
      { induction x0 as [|e x0 IH]; intros [|e' y0]; try reflexivity. unfold zip_with in *. cbn [map combine fst snd]. rewrite IH. reflexivity. }
      destruct x as [|e [|e2 x]]; destruct y as [|e' [|e3 y]]; try reflexivity.
      - cbn [map bcast]. rewrite !map_map. reflexivity.
      - cbn [map bcast]. rewrite !map_map. reflexivity.
      - exact (Z (e :: e2 :: x) (e' :: e3 :: y)). }
    rewrite B. apply mc_raised_values. }
  rewrite EZ2.
  set (Z1' := if n_rv np then _ else estimate_mc (map (raised d) _) _). set (Z1 := if n_rv np then _ else estimate_mc (n_lp np) _).
  assert (HZ1 : alike Z1 Z1') by (unfold Z1, Z1'; destruct (n_rv np); [intros t0 t; reflexivity|apply mc_raised_values]).
  assert (Ekl : forall base, zip_with (fun x lp => dmul (dsub x base) (eval1 (dsub lp Z1'))) f (map (raised d) (n_lp np))
     = zip_with (fun x lp => dmul (dsub x base) (eval1 (dsub lp Z1))) f (n_lp np)).
  { intros base. generalize f (n_lp np). induction f0 as [|x f0 IH]; intros [|lp lps]; try reflexivity.
    unfold zip_with in *. cbn [map combine fst snd]. rewrite IH. f_equal. f_equal. unfold eval1. f_equal. apply eval0_alike.
    intros t0 t. specialize (HZ1 t0 t). unfold dsub, raised. lra. }
  rewrite Ekl. reflexivity.
Qed.
Print Assumptions C99_rkl_rescaled.

(** Under nvo_avo the loss moves by minus the log of the factor of the incremental weights, a
    constant, so that its gradient stays. *)
Theorem C99_avo_rescaled (c : R) (o o' : out_ad) : rescaled c o o' -> oa_lv o <> [] ->
  forall t0 t, nvo_avo o' t0 t = (nvo_avo o t0 t - c)%R.
Proof.
  intros (_ & _ & Ev & _) Hne t0 t. unfold nvo_avo. rewrite Ev. set (l := oa_lv o) in *. rewrite !map_map.
  assert (S : forall g : ad -> ad, estimate_mc (map g l) (map (fun _ => dconst 0) l) t0 t = (rsum (map (fun e => g e t0 t) l) / INR (length l))%R).
  { intros g. rewrite mc_at by (rewrite !map_length; reflexivity).
    replace (map (fun _ : ad => dconst 0) l) with (map ddetach (map (fun _ : ad => dconst 0) l)) by (rewrite map_map; reflexivity).
    rewrite softmax_at. unfold nweights. rewrite !map_map. unfold value, dconst. rewrite exp_0.
    assert (E : rsum (map (fun _ : ad => 1%R) l) = INR (length l)).
    { generalize l. clear. induction l as [|x l IH]; [reflexivity|]. cbn [map]. rewrite rsum_cons, IH. cbn [length]. rewrite S_INR. ring. }
    rewrite E. generalize (INR (length l)). intros n. clear. induction l as [|x l IH]; [unfold Rdiv; cbn; ring|].
    cbn [map]. rewrite dot_cons, rsum_cons, IH. unfold Rdiv. ring. }
  rewrite (S (fun e => dneg (raised c e))), (S dneg). unfold dneg, raised.
  assert (Hn : INR (length l) <> 0%R) by (apply not_0_INR; destruct l; [congruence|discriminate]).
  assert (E : rsum (map (fun e : ad => - (e t0 t + c))%R l) = (rsum (map (fun e : ad => - e t0 t)%R l) - INR (length l) * c)%R).
  { clear. induction l as [|x l IH]; [cbn; ring|]. cbn [map]. rewrite !rsum_cons, IH. cbn [length]. rewrite S_INR. ring. }
  rewrite E. field. exact Hn.
Qed.
Print Assumptions C99_avo_rescaled.

(** The losses of the bouncing-digits experiment do not depend on constant factors of the weights,
    one factor per batch entry. *)
Theorem C99_loss_is_rescaled (log_w log_w' log_q log_p : list (list ad)) (total : ad) :
  Forall2 (fun lw lw' => exists a, lw' = map (raised a) lw) log_w log_w' ->
  loss_is log_w' log_q log_p total = loss_is log_w log_q log_p total.
Proof.
  intros H. assert (G : forall x, weighted log_w' x = weighted log_w x).
  { intros x. unfold weighted. f_equal. revert x. induction H as [|lw lw' l l' (a & ->) H IH]; intros [|xs x]; try reflexivity.
    unfold zip_with in *. cbn [map combine fst snd]. rewrite IH, raised_detach, mc_raised_weights. reflexivity. }
  unfold loss_is. rewrite !G. reflexivity.
Qed.
Print Assumptions C99_loss_is_rescaled.

(** ** the order of the particles *)
Lemma reorder_map {A B} (f : A -> B) p l : map f (reorder p l) = reorder p (map f l).
Proof.
  induction p as [|i p IH]; [reflexivity|]. cbn [reorder flat_map]. rewrite map_app. unfold reorder in IH. rewrite IH. f_equal.
  rewrite nth_error_map. destruct (nth_error l i); reflexivity.
Qed.
Lemma reorder_zip {A B C} (f : A -> B -> C) p a b : length a = length b ->
  zip_with f (reorder p a) (reorder p b) = reorder p (zip_with f a b).
Proof.
  intros Hl. induction p as [|i p IH]; [reflexivity|]. cbn [reorder flat_map].
  assert (E : nth_error (zip_with f a b) i = match nth_error a i, nth_error b i with Some x, Some y => Some (f x y) | _, _ => None end).
  { clear - Hl. revert b i Hl. induction a as [|x a IH]; intros [|y b] i Hl; try discriminate; [destruct i; reflexivity|].
    destruct i; [reflexivity|]. injection Hl as Hl. exact (IH b i Hl). }
  rewrite E. destruct (nth_error a i) as [x|] eqn:Ea, (nth_error b i) as [y|] eqn:Eb; cbn [app].
  - unfold zip_with in *. cbn [combine map fst snd]. f_equal. exact IH.
  - apply nth_error_None in Eb. assert (i < length a) by (apply nth_error_Some; congruence). lia.
  - apply nth_error_None in Ea. assert (i < length b) by (apply nth_error_Some; congruence). lia.
  - exact IH.
Qed.
Lemma reorder_seq {A} (l : list A) : reorder (seq 0 (length l)) l = l.
Proof.
  assert (G : forall l k (l0 : list A), length l0 = k -> flat_map (fun i => match nth_error (l0 ++ l) i with Some x => [x] | None => [] end) (seq k (length l)) = l).
  { induction l0 as [|x l0 IH]; intros k l1 Hk; [reflexivity|]. cbn [length seq flat_map].
    rewrite nth_error_app2, Hk, Nat.sub_diag by lia. cbn [nth_error app]. f_equal.
    replace (l1 ++ x :: l0) with ((l1 ++ [x]) ++ l0) by (rewrite <- app_assoc; reflexivity). apply IH. rewrite app_length. cbn. lia. }
  exact (G l 0 [] eq_refl).
Qed.
Lemma reorder_perm {A} p (l : list A) : Permutation p (seq 0 (length l)) -> Permutation (reorder p l) l.
Proof. intros H. rewrite <- (reorder_seq l) at 2. apply Permutation_flat_map, H. Qed.
Lemma reorder_length {A} p (l : list A) : Permutation p (seq 0 (length l)) -> length (reorder p l) = length l.
Proof. intros H. apply Permutation_length, reorder_perm, H. Qed.

Lemma rsum_permutation l l' : Permutation l l' -> rsum l = rsum l'.
Proof. induction 1 as [|x l l' H IH|x y l|l l1 l2 H1 IH1 H2 IH2]; [reflexivity|rewrite !rsum_cons, IH; reflexivity|rewrite !rsum_cons; lra|rewrite IH1; exact IH2]. Qed.
Lemma rsum_reorder p l : Permutation p (seq 0 (length l)) -> forall g : ad -> R, rsum (map g (reorder p l)) = rsum (map g l).
Proof. intros H g. apply rsum_permutation, Permutation_map, reorder_perm, H. Qed.

Lemma softmax_reorder p l : Permutation p (seq 0 (length l)) -> dsoftmax (reorder p l) = reorder p (dsoftmax l).
Proof.
  intros H. unfold dsoftmax. rewrite <- reorder_map. apply map_ext. intros e. fext.
  exact (f_equal (fun s => exp (e t0 t) / s)%R (rsum_reorder p l H (fun e' => exp (e' t0 t)))).
Qed.

Lemma mc_reorder p v l : length v = length l -> Permutation p (seq 0 (length l)) ->
  estimate_mc (reorder p v) (reorder p l) = estimate_mc v l.
Proof.
  intros Hl H. assert (Hs : length (dsoftmax l) = length v) by (rewrite softmax_length; congruence).
  unfold estimate_mc. rewrite softmax_reorder by exact H. rewrite !bcast_same; [|exact Hs|].
  - rewrite reorder_zip by exact Hs. fext. unfold dsum. apply rsum_reorder. unfold zip_with. rewrite map_length, combine_length, Hs, Nat.min_id, Hl. exact H.
  - rewrite !reorder_length; [exact Hs|rewrite Hl; exact H|rewrite softmax_length; exact H].
Qed.

Lemma dget_reorder p k d : dget k (map (fun kn : string * node_ad => (fst kn, reorder_node p (snd kn))) d) = option_map (reorder_node p) (dget k d).
Proof. induction d as [|[k0 n] d IH]; [reflexivity|]. cbn [map dget fst snd]. destruct (String.eqb k k0); [reflexivity|exact IH]. Qed.

(** However the particles are numbered, the losses are the same functions of the parameters. *)
Theorem C99_rkl_order (n : nat) (p : list nat) (o : out_ad) : per_particle n o -> Permutation p (seq 0 n) ->
  nvo_rkl (reorder_out p o) = nvo_rkl o.
Proof.
  intros (Hw & Hv & Hn) Hp. unfold nvo_rkl, getitem. cbn [reorder_out oa_ix oa_lw oa_lv oa_proposal oa_target]. rewrite !dget_reorder.
  destruct (dget (gname_z (oa_ix o)) (oa_proposal o)) as [np|] eqn:E1; [|reflexivity]. cbn [option_map rbind].
  destruct (dget (gname_z (oa_ix o + 1)) (oa_target o)) as [nt|] eqn:E2; [|reflexivity]. cbn [option_map rbind].
  destruct (dget (gname_z (oa_ix o + 1)) (oa_proposal o)) as [nf|]; [|reflexivity]. cbn [option_map rbind].
  destruct (dget (gname_z (oa_ix o)) (oa_target o)) as [nr|]; [|reflexivity]. cbn [option_map rbind].
  assert (H1 : length (n_lp np) = n) by (apply (Hn (gname_z (oa_ix o))), in_or_app; left; apply dget_In, E1).
  assert (H2 : length (n_nrep nt) = n) by (apply (Hn (gname_z (oa_ix o + 1))), in_or_app; right; apply dget_In, E2).
  assert (Lv : length (reorder p (oa_lv o)) = length (oa_lv o)) by (apply reorder_length; rewrite Hv; exact Hp).
  assert (Lw : length (reorder p (oa_lw o)) = length (oa_lw o)) by (apply reorder_length; rewrite Hw; exact Hp).
  rewrite Lv. destruct (Nat.eqb_spec (length (oa_lv o)) 0) as [|HS]; [reflexivity|].
  assert (Ef : fits (map ddetach (reorder p (oa_lw o))) (reorder p (oa_lv o)) = fits (map ddetach (oa_lw o)) (oa_lv o)).
  { unfold fits. rewrite !map_length, Lv, Lw. reflexivity. }
  rewrite Ef. destruct (negb _); [reflexivity|]. cbn [reorder_node n_rv n_lp n_nrep]. rewrite !reorder_map.
  set (lw := map ddetach (oa_lw o)). assert (Lw' : length lw = n) by (unfold lw; rewrite map_length; exact Hw).
  assert (Ldv : length (map ddetach (oa_lv o)) = n) by (rewrite map_length; exact Hv).
  assert (EZ : dlogsumexp (reorder p (map ddetach (oa_lv o))) = dlogsumexp (map ddetach (oa_lv o))).
  { fext. unfold dlogsumexp. f_equal. apply (rsum_reorder p _ ltac:(rewrite Ldv; exact Hp) (fun e => exp (e t0 t))). }
  rewrite EZ. set (ldZ := dsub _ _). set (f := map (fun v => dneg (dsub v ldZ)) (oa_lv o)).
  assert (Lf : length f = n) by (unfold f; rewrite map_length; exact Hv).
  rewrite (bcast_same dadd (reorder p lw)) by (rewrite !reorder_length; rewrite ?Ldv, ?Lw'; trivial).
  rewrite (bcast_same dadd lw) by congruence. rewrite (reorder_zip dadd p lw) by congruence.
  assert (Lz : length (zip_with dadd lw (map ddetach (oa_lv o))) = n) by (unfold zip_with; rewrite map_length, combine_length, Lw', Ldv; apply Nat.min_id).
  assert (M : forall v l, length v = n -> length l = n -> estimate_mc (reorder p v) (reorder p l) = estimate_mc v l).
  { intros v l H3 H4. apply mc_reorder; [congruence|rewrite H4; exact Hp]. }
  rewrite (M (n_lp np) lw), (M (map ddetach f) lw), (M (n_nrep nt) _ H2 Lz) by (rewrite ?map_length; assumption).
  set (Z1 := if n_rv np then _ else _). set (Z2 := if n_rv nt then _ else _). set (base := estimate_mc (map ddetach f) lw).
  rewrite reorder_zip by congruence. rewrite mc_reorder; [reflexivity| |rewrite Lw'; exact Hp].
  unfold zip_with. rewrite map_length, combine_length, Lf, H1, Nat.min_id. congruence.
Qed.
Print Assumptions C99_rkl_order.

Theorem C99_avo_order (n : nat) (p : list nat) (o : out_ad) : per_particle n o -> Permutation p (seq 0 n) ->
  nvo_avo (reorder_out p o) = nvo_avo o.
Proof.
  intros (_ & Hv & _) Hp. unfold nvo_avo. cbn [reorder_out oa_lv]. rewrite !reorder_map. apply mc_reorder; rewrite !map_length; [reflexivity|].
  rewrite Hv. exact Hp.
Qed.
Print Assumptions C99_avo_order.

(** the particles of every batch entry may be numbered differently *)
Theorem C99_loss_is_order (n : nat) (ps : list (list nat)) (log_w log_q log_p : list (list ad)) (total : ad) :
  length ps = length log_w -> length log_q = length log_w -> length log_p = length log_w ->
  (forall r, In r (log_w ++ log_q ++ log_p) -> length r = n) -> (forall p, In p ps -> Permutation p (seq 0 n)) ->
  loss_is (zip_with reorder ps log_w) (zip_with reorder ps log_q) (zip_with reorder ps log_p) total = loss_is log_w log_q log_p total.
Proof.
  intros L1 L2 L3 Hr Hp.
  assert (G : forall x, length x = length log_w -> (forall r, In r x -> length r = n) ->
    weighted (zip_with reorder ps log_w) (zip_with reorder ps x) = weighted log_w x).
  { assert (Hw : forall r, In r log_w -> length r = n) by (intros r Hin; apply Hr, in_or_app; left; exact Hin).
    clear L2 L3 Hr. intros x Lx Hx. unfold weighted. f_equal. revert log_w x L1 Lx Hw Hx.
    induction ps as [|p ps IH]; intros [|lw log_w] [|xs x] L1 Lx Hw Hx; try discriminate; [reflexivity|].
    injection L1 as L1. injection Lx as Lx. unfold zip_with in *. cbn [map combine fst snd].
    rewrite IH; trivial; [|intros; apply Hp; right; assumption|intros; apply Hw; right; assumption|intros; apply Hx; right; assumption].
    f_equal. rewrite !reorder_map. assert (length lw = n) by (apply Hw; left; reflexivity). assert (length xs = n) by (apply Hx; left; reflexivity).
    apply mc_reorder; rewrite !map_length; [congruence|]. rewrite H. apply Hp. left. reflexivity. }
  unfold loss_is. rewrite !G; trivial; intros r Hin; apply Hr; apply in_or_app; right; apply in_or_app; [right|left]; exact Hin.
Qed.
Print Assumptions C99_loss_is_order.

(** Nor do the reported effective sample size and log-evidence depend on the order. *)
Theorem C99_metrics_order (lw lw' : list ereal) : alive lw -> Permutation lw lw' ->
  effective_sample_size lw' = effective_sample_size lw.
Proof.
  intros Ha Hp. assert (Ha' : alive lw') by (destruct Ha as (r & Hr); exists r; eapply Permutation_in; eassumption).
  rewrite !ess_spec by assumption.
  assert (E : forall g, rsum (map g lw') = rsum (map g lw)) by (intros g; apply rsum_permutation, Permutation_map, Permutation_sym, Hp).
  rewrite !E. reflexivity.
Qed.
Print Assumptions C99_metrics_order.
Theorem C99_evidence_order (l l' : list R) : l <> [] -> Permutation l l' -> log_Z_hat (reals l') = log_Z_hat (reals l).
Proof.
  intros Hne Hp. assert (Hne' : l' <> []) by (intros ->; apply Permutation_sym, Permutation_nil in Hp; contradiction).
  rewrite !log_Z_hat_spec by assumption. do 2 f_equal. rewrite (Permutation_length Hp). f_equal.
  apply rsum_permutation, Permutation_map, Permutation_sym, Hp.
Qed.
Print Assumptions C99_evidence_order.

(** cases: two particles; the target's density is multiplied by exp 3, the proposal's by exp (-1), the
    incoming weights by exp 7; then the two particles are swapped *)
Definition C99_nodes (c : R) (rv : bool) : node_ad :=
  mkNode rv (map (raised c) [(fun _ t => - (t * t))%R; dconst 2]) (map (raised c) [dconst 0; fun _ t => t]).
Definition C99_out (a c d e : R) : out_ad :=
  mkOutAd 0 (map (raised a) [dconst 0; dconst 1]) (map (raised c) [dconst 0; fun _ t => t])
    [("g0", C99_nodes d false); ("g1", C99_nodes 0 true)] [("g1", C99_nodes e false); ("g0", C99_nodes 0 true)].
Lemma raised_twice a c l : map (raised (a + c)) l = map (raised c) (map (raised a) l).
Proof. rewrite map_map. apply map_ext. intros e. fext. unfold raised. ring. Qed.
Example C99_case : rescaled 4 (C99_out 0 0 0 0) (C99_out 7 4 (-1) 3) /\ oa_lv (C99_out 0 0 0 0) <> [].
Proof.
  split; [|discriminate].
  assert (E : forall c l, map (raised c) l = map (raised c) (map (raised 0) l)) by (intros c l; rewrite <- raised_twice, Rplus_0_l; reflexivity).
  assert (Hn : forall c rv, rescaled_node (C99_nodes 0 rv) (C99_nodes c rv)) by (intros c rv; split; [reflexivity|]; exists c; split; apply E).
  split; [reflexivity|]. split; [exists 7%R; apply E|]. split; [apply E|].
  split; repeat constructor; try reflexivity; apply Hn.
Qed.
Example C99_order_case : per_particle 2 (C99_out 0 0 0 0) /\ Permutation [1; 0] (seq 0 2).
Proof.
  split; [|apply perm_swap]. split; [reflexivity|]. split; [reflexivity|]. intros k nd H.
  repeat (destruct H as [H|H]; [injection H as _ <-; split; reflexivity|]). destruct H.
Qed.
