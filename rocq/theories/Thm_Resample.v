(** Proofs of C28-C35. *)
From Coq Require Import Lra Psatz.
From Coquelicot Require Import Coquelicot.
From Verif Require Export SystematicFacts.
Open Scope R_scope.

(** ** C30 *)
Lemma is_RInt_up x : is_RInt (fun u => IZR (up (x - u))) 0 1 x.
Proof.
  set (m := (up x - 1)%Z). destruct (archimed x) as [A1 A2].
  assert (Em : IZR m = IZR (up x) - 1) by (unfold m; rewrite minus_IZR; reflexivity).
  set (f := x - IZR m). assert (Hf : 0 <= f < 1) by (unfold f; lra).
  assert (E : plus (scal (f - 0) (IZR (m + 1)) : R_NormedModule) (scal (1 - f) (IZR m) : R_NormedModule) = x).
  { unfold plus, scal; cbn. unfold mult; cbn. rewrite plus_IZR. unfold f. ring. }
  cut (is_RInt (fun u => IZR (up (x - u))) 0 1 (plus (scal (f - 0) (IZR (m + 1)) : R_NormedModule) (scal (1 - f) (IZR m) : R_NormedModule))).
  { rewrite E. exact (fun H => H). }
  clear E. apply (is_RInt_Chasles (V := R_NormedModule)) with f.
  - apply is_RInt_ext with (fun _ => IZR (m + 1)); [|apply @is_RInt_const].
    intros u. rewrite Rmin_left, Rmax_right by lra. intros Hu. f_equal. apply up_spec. rewrite plus_IZR. unfold f in *. lra.
  - apply is_RInt_ext with (fun _ => IZR m); [|apply @is_RInt_const].
    intros u. rewrite Rmin_left, Rmax_right by lra. intros Hu. f_equal. apply up_spec. unfold f in *. lra.
Qed.
Lemma offspring_unbiased lw i : alive lw -> (i < length lw)%nat ->
  is_RInt (fun u => INR (offspring (ancestors_of lw u) i)) 0 1 (INR (length lw) * nth i (softmax lw) 0).
Proof.
  intros Ha Hi.
  replace (INR (length lw) * nth i (softmax lw) 0) with
    (minus (INR (length lw) * psum (softmax lw) (S i)) (INR (length lw) * psum (softmax lw) i)).
  2:{ rewrite psum_S by (rewrite softmax_length; exact Hi). unfold minus, plus, opp; cbn. ring. }
  apply is_RInt_ext with (fun u => minus (IZR (up (INR (length lw) * psum (softmax lw) (S i) - u)))
                                         (IZR (up (INR (length lw) * psum (softmax lw) i - u)))).
  - intros u. rewrite Rmin_left, Rmax_right by lra. intros Hu.
    rewrite (INR_IZR_INZ (offspring _ _)), (offspring_up lw Ha u) by (assumption || lra). rewrite minus_IZR. reflexivity.
  - apply (is_RInt_minus (V := R_NormedModule)); apply is_RInt_up.
Qed.
Lemma sum_by_offspring (f : nat -> R) n l : (forall k, In k l -> (k < n)%nat) ->
  rsum (map f l) = rsum (map (fun i => INR (offspring l i) * f i) (seq 0 n)).
Proof.
  induction l as [|k l IH]; intros H.
  - cbn [map]. rewrite (rsum_ext _ (fun _ => 0)) by (intros; cbn; lra). rewrite rsum_const. cbn. lra.
  - cbn [map]. rewrite rsum_cons, IH by (intros j Hj; apply H; right; exact Hj).
    assert (Hk : (k < n)%nat) by (apply H; left; reflexivity).
    rewrite (rsum_ext (fun i => INR (offspring (k :: l) i) * f i)
               (fun i => (if Nat.eqb i k then f i else 0) + INR (offspring l i) * f i)).
    2:{ intros i _. unfold offspring. cbn [filter]. destruct (Nat.eqb i k); cbn [length]; [rewrite S_INR|]; lra. }
    rewrite rsum_plus. f_equal. clear - Hk.
    replace n with (k + (1 + (n - k - 1)))%nat by lia. rewrite !seq_app, !map_app, !rsum_app. cbn [Nat.add seq map].
    rewrite (rsum_ext _ (fun _ => 0) (seq 0 k)).
    2:{ intros i Hi. apply in_seq in Hi. destruct (Nat.eqb_spec i k); [lia|reflexivity]. }
    rewrite (rsum_ext _ (fun _ => 0) (seq _ (n - k - 1))).
    2:{ intros i Hi. apply in_seq in Hi. destruct (Nat.eqb_spec i k); [lia|reflexivity]. }
    rewrite !rsum_const. rewrite Nat.eqb_refl. cbn. lra.
Qed.
Lemma is_RInt_rsum {A} (g : A -> R -> R) (v : A -> R) l :
  (forall x, In x l -> is_RInt (g x) 0 1 (v x)) ->
  is_RInt (fun u => rsum (map (fun x => g x u) l)) 0 1 (rsum (map v l)).
Proof.
  induction l as [|x l IH]; intros H.
  - cbn. pose proof (is_RInt_const (V := R_NormedModule) 0 1 0) as G.
    replace (scal (1 - 0) (0 : R_NormedModule)) with 0 in G by (unfold scal; cbn; unfold mult; cbn; ring). exact G.
  - cbn [map]. rewrite rsum_cons.
    apply is_RInt_ext with (fun u => plus (g x u) (rsum (map (fun x => g x u) l))); [intros; reflexivity|].
    apply (is_RInt_plus (V := R_NormedModule)); [apply H; left; reflexivity|]. apply IH. intros y Hy. apply H. right. exact Hy.
Qed.
Lemma average_unbiased lw (f : nat -> R) : alive lw ->
  is_RInt (fun u => rsum (map f (ancestors_of lw u)) / INR (length lw)) 0 1
          (rsum (map (fun i => nth i (softmax lw) 0 * f i) (seq 0 (length lw)))).
Proof.
  intros Ha. assert (Hn : 0 < INR (length lw)).
  { apply lt_0_INR. destruct Ha as [r H]. destruct lw; [contradiction|cbn; lia]. }
  rewrite (rsum_ext _ (fun i => scal (/ INR (length lw) * f i) (INR (length lw) * nth i (softmax lw) 0))).
  2:{ intros i _. unfold scal; cbn. unfold mult; cbn. field. lra. }
  apply is_RInt_ext with (fun u => rsum (map (fun i => scal (/ INR (length lw) * f i) (INR (offspring (ancestors_of lw u) i))) (seq 0 (length lw)))).
  - intros u. rewrite Rmin_left, Rmax_right by lra. intros Hu.
    rewrite (sum_by_offspring f (length lw)).
    2:{ intros k Hk. eapply ancestors_range; [exact Ha| |exact Hk]. lra. }
    unfold Rdiv. rewrite Rmult_comm, <- rsum_scale, map_map. apply rsum_ext. intros i _. unfold scal; cbn. unfold mult; cbn. ring.
  - apply is_RInt_rsum. intros i Hi. apply in_seq in Hi. apply (is_RInt_scal (V := R_NormedModule)). apply offspring_unbiased; [exact Ha|lia].
Qed.

(** ** C32, C35 *)
Lemma Z_hat_pos lw : alive lw -> 0 < Z_hat lw.
Proof.
  intros Ha. unfold Z_hat. apply Rdiv_lt_0_compat; [apply alive_pos, Ha|].
  apply lt_0_INR. destruct Ha as [r H]. destruct lw; [contradiction|cbn; lia].
Qed.
Lemma logmean_Z_hat lw : logsumexp (map (eshift (- ln (INR (length lw)))) lw) = log_Z_hat lw.
Proof.
  unfold logsumexp, log_Z_hat, Z_hat. f_equal. destruct lw as [|x lw]; [cbn; unfold Rdiv; ring|].
  set (l := x :: lw). rewrite map_map. rewrite (rsum_ext _ (fun y => / INR (length l) * eexp y)).
  - rewrite <- (map_map eexp (fun y => / INR (length l) * y)), rsum_scale. unfold Rdiv. ring.
  - intros y _. rewrite eexp_shift, exp_Ropp, exp_ln; [ring|]. apply lt_0_INR. cbn. lia.
Qed.
Lemma log_Z_hat_const n z : (0 < n)%nat -> 0 <= z -> log_Z_hat (map (fun _ => elog z) (seq 0 n)) = elog z.
Proof.
  intros Hn Hz. unfold log_Z_hat, Z_hat. f_equal. rewrite map_map, rsum_const, map_length, seq_length, eexp_elog by exact Hz.
  field. apply not_0_INR. lia.
Qed.
Lemma Z_hat_ge0 lw : 0 <= Z_hat lw.
Proof.
  unfold Z_hat. destruct lw as [|x lw]; [cbn; unfold Rdiv; lra|].
  apply Rmult_le_pos; [apply rsum_ge0, eexps_ge0|]. left. apply Rinv_0_lt_compat, lt_0_INR. cbn. lia.
Qed.
(** real log-weights *)
Definition reals (l : list R) : list ereal := map Fin l.
Lemma exp_le a b : a <= b -> exp a <= exp b.
Proof. intros [H| ->]; [left; apply exp_increasing, H|right; reflexivity]. Qed.
Lemma reals_alive l : l <> [] -> alive (reals l).
Proof. destruct l as [|x l]; [congruence|]. intros _. exists x. left. reflexivity. Qed.
Lemma log_Z_hat_spec l : l <> [] ->
  log_Z_hat (reals l) = Fin (ln (rsum (map exp l) / INR (length l))).
Proof.
  intros H. unfold log_Z_hat, elog. destruct (Rlt_dec 0 (Z_hat (reals l))) as [_|Hn].
  - unfold Z_hat, reals. rewrite map_map, map_length. reflexivity.
  - exfalso. apply Hn, Z_hat_pos, reals_alive, H.
Qed.
Lemma log_Z_hat_bounds l a b z : l <> [] -> (forall x, In x l -> a <= x <= b) ->
  log_Z_hat (reals l) = Fin z -> a <= z <= b.
Proof.
  intros Hn H. rewrite log_Z_hat_spec by exact Hn. intros [= <-].
  assert (Hl : 0 < INR (length l)) by (apply lt_0_INR; destruct l; [congruence|cbn; lia]).
  assert (Hlo : INR (length l) * exp a <= rsum (map exp l)).
  { rewrite <- (rsum_const (exp a) l). apply rsum_le. clear Hl Hn. induction l as [|x l IH]; [constructor|].
    constructor; [apply exp_le, H; left; reflexivity|]. apply IH. intros y Hy. apply H. right. exact Hy. }
  assert (Hhi : rsum (map exp l) <= INR (length l) * exp b).
  { rewrite <- (rsum_const (exp b) l). apply rsum_le. clear Hl Hn Hlo. induction l as [|x l IH]; [constructor|].
    constructor; [apply exp_le, H; left; reflexivity|]. apply IH. intros y Hy. apply H. right. exact Hy. }
  assert (H1 : exp a <= rsum (map exp l) / INR (length l)).
  { apply Rmult_le_reg_r with (INR (length l)); [exact Hl|]. unfold Rdiv. rewrite Rmult_assoc, Rinv_l by lra. lra. }
  assert (H2 : rsum (map exp l) / INR (length l) <= exp b).
  { apply Rmult_le_reg_r with (INR (length l)); [exact Hl|]. unfold Rdiv. rewrite Rmult_assoc, Rinv_l by lra. lra. }
  pose proof (exp_pos a).
  split.
  - rewrite <- (ln_exp a). destruct H1 as [H1|H1]; [left; apply ln_increasing; lra|rewrite H1; lra].
  - rewrite <- (ln_exp b). destruct H2 as [H2|H2]; [left; apply ln_increasing; lra|rewrite H2; lra].
Qed.
Lemma log_Z_hat_shift l c : l <> [] ->
  log_Z_hat (reals (map (fun x => x + c) l)) = eshift c (log_Z_hat (reals l)).
Proof.
  intros H. assert (Hl : 0 < INR (length l)) by (apply lt_0_INR; destruct l; [congruence|cbn; lia]).
  rewrite log_Z_hat_spec by (destruct l; [congruence|discriminate]). rewrite log_Z_hat_spec by exact H. cbn [eshift]. f_equal.
  rewrite map_map, map_length, (rsum_ext _ (fun x => exp c * exp x)) by (intros; rewrite exp_plus; ring).
  rewrite <- (map_map exp (fun x => exp c * x)), rsum_scale.
  replace (exp c * rsum (map exp l) / INR (length l)) with (rsum (map exp l) / INR (length l) * exp c) by (field; lra).
  rewrite ln_mult, ln_exp; [reflexivity| |apply exp_pos].
  apply Rdiv_lt_0_compat; [|exact Hl]. pose proof (alive_pos _ (reals_alive l H)) as Hp. unfold reals in Hp. rewrite map_map in Hp. exact Hp.
Qed.

(** ** C34 *)
Lemma eexp_scale2 x : eexp (escale 2 x) = eexp x * eexp x.
Proof. destruct x; cbn; [lra|]. rewrite <- exp_plus. f_equal. ring. Qed.
Lemma rsum_pos_sq l : 0 < rsum l -> 0 < rsum (map (fun x => x * x) l).
Proof.
  intros H. assert (G : exists x, In x l /\ 0 < x).
  { induction l as [|x l IH]; [cbn in H; lra|]. rewrite rsum_cons in H. destruct (Rlt_dec 0 x) as [Hx|Hx].
    - exists x. split; [left; reflexivity|exact Hx].
    - destruct IH as (y & Hy & Hp); [lra|]. exists y. split; [right; exact Hy|exact Hp]. }
  destruct G as (x & Hx & Hp). apply Rlt_le_trans with (x * x); [apply Rmult_lt_0_compat; exact Hp|].
  apply rsum_ge_elem.
  - intros y Hy. apply in_map_iff in Hy. destruct Hy as (z & <- & _). apply Rle_0_sqr.
  - apply in_map_iff. exists x. split; [reflexivity|exact Hx].
Qed.
Lemma ess_spec lw : alive lw ->
  effective_sample_size lw = rsum (map eexp lw) * rsum (map eexp lw) / rsum (map (fun x => eexp x * eexp x) lw).
Proof.
  intros Ha. pose proof (alive_pos lw Ha) as HS. set (S := rsum (map eexp lw)) in *.
  unfold effective_sample_size, logsumexp.
  assert (E : rsum (map eexp (map (escale 2) (map elog (softmax lw)))) = rsum (map (fun x => eexp x * eexp x) lw) / (S * S)).
  { rewrite !map_map. rewrite (rsum_ext _ (fun x => x * x)).
    2:{ intros x Hx. rewrite eexp_scale2, eexp_elog by (eapply softmax_ge0; eassumption). reflexivity. }
    unfold softmax. rewrite map_map. fold S.
    rewrite (rsum_ext _ (fun x => / (S * S) * (eexp x * eexp x))) by (intros; field; lra).
    rewrite <- (map_map (fun x => eexp x * eexp x) (fun y => / (S * S) * y)), rsum_scale. field. lra. }
  rewrite E.
  assert (Hq : 0 < rsum (map (fun x => eexp x * eexp x) lw)).
  { rewrite <- (map_map eexp (fun x => x * x)). apply rsum_pos_sq. exact HS. }
  assert (HSS : 0 < S * S) by (apply Rmult_lt_0_compat; exact HS).
  assert (Hp : 0 < rsum (map (fun x => eexp x * eexp x) lw) / (S * S)) by (apply Rdiv_lt_0_compat; assumption).
  unfold elog. destruct (Rlt_dec 0 _) as [_|Hn]; [|contradiction]. cbn [eexp].
  rewrite exp_Ropp, exp_ln by exact Hp. field. split; lra.
Qed.
Lemma rsum_sq_le l : (forall x, In x l -> 0 <= x) -> rsum (map (fun x => x * x) l) <= rsum l * rsum l.
Proof.
  induction l as [|x l IH]; intros H; [cbn; lra|]. cbn [map]. rewrite !rsum_cons.
  assert (0 <= rsum l) by (apply rsum_ge0; intros y Hy; apply H; right; exact Hy).
  assert (0 <= x) by (apply H; left; reflexivity). specialize (IH (fun y Hy => H y (or_intror Hy))).
  assert (0 <= x * rsum l) by (apply Rmult_le_pos; assumption). nra.
Qed.
(** Cauchy-Schwarz with the constant vector, and its equality case *)
Lemma rsum_var l m : rsum (map (fun x => (x - m) * (x - m)) l) =
  rsum (map (fun x => x * x) l) - 2 * m * rsum l + INR (length l) * (m * m).
Proof. induction l as [|x l IH]; [cbn; lra|]. cbn [map length]. rewrite !rsum_cons, IH, S_INR. ring. Qed.
Lemma rsum_sq_zero l m : rsum (map (fun x => (x - m) * (x - m)) l) = 0 -> forall x, In x l -> x = m.
Proof.
  intros H x Hx. assert (Hle : (x - m) * (x - m) <= 0).
  { rewrite <- H. apply rsum_ge_elem.
    - intros y Hy. apply in_map_iff in Hy. destruct Hy as (z & <- & _). apply Rle_0_sqr.
    - apply in_map_iff. exists x. split; [reflexivity|exact Hx]. }
  pose proof (Rle_0_sqr (x - m)) as Hge. unfold Rsqr in Hge.
  assert ((x - m) * (x - m) = 0) by lra. apply Rmult_integral in H0. lra.
Qed.
Lemma ess_bounds lw : alive lw -> 1 <= effective_sample_size lw <= INR (length lw).
Proof.
  intros Ha. rewrite ess_spec by exact Ha. pose proof (alive_pos lw Ha) as HS.
  rewrite <- (map_map eexp (fun x => x * x)).
  assert (Hn : 0 < INR (length lw)). { apply lt_0_INR. destruct Ha as [r H]. destruct lw; [contradiction|cbn; lia]. }
  set (l := map eexp lw) in *. assert (El : length l = length lw) by apply map_length.
  assert (Hq : 0 < rsum (map (fun x => x * x) l)) by (apply rsum_pos_sq, HS).
  pose proof (rsum_sq_le l (eexps_ge0 lw)) as H1.
  split.
  - apply Rmult_le_reg_r with (rsum (map (fun x => x * x) l)); [exact Hq|]. unfold Rdiv. rewrite Rmult_assoc, Rinv_l by lra. lra.
  - apply Rmult_le_reg_r with (rsum (map (fun x => x * x) l)); [exact Hq|]. unfold Rdiv. rewrite Rmult_assoc, Rinv_l by lra. rewrite Rmult_1_r.
    pose proof (rsum_var l (rsum l / INR (length lw))) as HV. rewrite El in HV.
    assert (0 <= rsum (map (fun x => (x - rsum l / INR (length lw)) * (x - rsum l / INR (length lw))) l)).
    { apply rsum_ge0. intros y Hy. apply in_map_iff in Hy. destruct Hy as (z & <- & _). apply Rle_0_sqr. }
    rewrite HV in H.
    replace (2 * (rsum l / INR (length lw)) * rsum l) with (2 * (rsum l * rsum l) / INR (length lw)) in H by (field; lra).
    replace (INR (length lw) * (rsum l / INR (length lw) * (rsum l / INR (length lw)))) with (rsum l * rsum l / INR (length lw)) in H by (field; lra).
    apply Rmult_le_compat_r with (r := INR (length lw)) in H; [|lra].
    replace ((rsum (map (fun x => x * x) l) - 2 * (rsum l * rsum l) / INR (length lw) + rsum l * rsum l / INR (length lw)) * INR (length lw))
      with (rsum (map (fun x => x * x) l) * INR (length lw) - rsum l * rsum l) in H by (field; lra).
    lra.
Qed.
Lemma ess_max lw : alive lw ->
  (effective_sample_size lw = INR (length lw) <-> forall x y, In x lw -> In y lw -> x = y).
Proof.
  intros Ha. rewrite ess_spec by exact Ha. pose proof (alive_pos lw Ha) as HS.
  rewrite <- (map_map eexp (fun x => x * x)).
  assert (Hn : 0 < INR (length lw)). { apply lt_0_INR. destruct Ha as [r H]. destruct lw; [contradiction|cbn; lia]. }
  set (l := map eexp lw) in *. assert (El : length l = length lw) by apply map_length.
  assert (Hq : 0 < rsum (map (fun x => x * x) l)) by (apply rsum_pos_sq, HS).
  split.
  - intros H. assert (Hz : rsum (map (fun x => (x - rsum l / INR (length lw)) * (x - rsum l / INR (length lw))) l) = 0).
    { rewrite rsum_var, El. apply Rmult_eq_reg_r with (INR (length lw)); [|lra].
      replace ((rsum (map (fun x => x * x) l) - 2 * (rsum l / INR (length lw)) * rsum l + INR (length lw) * (rsum l / INR (length lw) * (rsum l / INR (length lw)))) * INR (length lw))
        with (rsum (map (fun x => x * x) l) * INR (length lw) - rsum l * rsum l) by (field; lra).
      rewrite <- H. field. lra. }
    intros x y Hx Hy. rewrite <- (elog_eexp x), <- (elog_eexp y). f_equal.
    rewrite (rsum_sq_zero _ _ Hz (eexp x)), (rsum_sq_zero _ _ Hz (eexp y)); [reflexivity| |]; apply in_map; assumption.
  - intros H. destruct Ha as [r Hr].
    assert (E : forall x, In x l -> x = exp r).
    { intros x Hx. apply in_map_iff in Hx. destruct Hx as (y & <- & Hy). rewrite (H y (Fin r) Hy Hr). reflexivity. }
    assert (E1 : rsum l = INR (length lw) * exp r).
    { rewrite <- El, <- rsum_const. rewrite <- (map_id l) at 1. apply rsum_ext. exact E. }
    assert (E2 : rsum (map (fun x => x * x) l) = INR (length lw) * (exp r * exp r)).
    { rewrite <- El, <- rsum_const. apply rsum_ext. intros x Hx. rewrite (E x Hx). reflexivity. }
    rewrite E1, E2. pose proof (exp_pos r). field. split; [|lra]. lra.
Qed.
Lemma ess_shift lw c : alive lw -> effective_sample_size (map (eshift c) lw) = effective_sample_size lw.
Proof.
  intros Ha. rewrite !ess_spec; [|exact Ha|].
  2:{ destruct Ha as [r H]. exists (r + c). apply in_map_iff. exists (Fin r). split; [reflexivity|exact H]. }
  pose proof (alive_pos lw Ha) as HS. pose proof (exp_pos c) as Hc.
  assert (Hq : 0 < rsum (map (fun x => eexp x * eexp x) lw)).
  { rewrite <- (map_map eexp (fun x => x * x)). apply rsum_pos_sq. exact HS. }
  rewrite !map_map.
  rewrite (rsum_ext _ (fun x => exp c * eexp x)) by (intros; rewrite eexp_shift; ring).
  rewrite (rsum_ext (fun x => eexp (eshift c x) * eexp (eshift c x)) (fun x => (exp c * exp c) * (eexp x * eexp x))) by (intros; rewrite eexp_shift; ring).
  rewrite <- (map_map eexp (fun x => exp c * x)), rsum_scale.
  rewrite <- (map_map (fun x => eexp x * eexp x) (fun x => exp c * exp c * x)), rsum_scale. field. split; lra.
Qed.
