(** Proof of C92: the average over one more call gives a bound at least as tight. *)
From Coq Require Import Lra Lia.
From Verif Require Import SpecMore Thm_Bound Thm_Proper Thm_Calls Thm_Scope.

(** *** leave-one-out averages *)
Fixpoint drop_at {A} (i : nat) (l : list A) : list A :=
  match l, i with
  | [], _ => []
  | _ :: l', 0 => l'
  | x :: l', S i' => x :: drop_at i' l'
  end.
Lemma rsum_cons x l : rsum (x :: l) = (x + rsum l)%R.
Proof. reflexivity. Qed.
Lemma rsum_plus {I} (f g : I -> R) l : rsum (map (fun i => f i + g i)%R l) = (rsum (map f l) + rsum (map g l))%R.
Proof. induction l as [|i l IH]; cbn [map]; rewrite ?rsum_cons; [cbn; lra|]. rewrite IH. lra. Qed.
Lemma rsum_scale {I} (f : I -> R) a l : rsum (map (fun i => a * f i)%R l) = (a * rsum (map f l))%R.
Proof. induction l as [|i l IH]; cbn [map]; rewrite ?rsum_cons; [cbn; lra|]. rewrite IH. lra. Qed.
Lemma rsum_const {I} (c : R) (l : list I) : rsum (map (fun _ => c) l) = (INR (length l) * c)%R.
Proof. induction l as [|i l IH]; cbn [map length]; [cbn; lra|]. rewrite rsum_cons, IH, S_INR. lra. Qed.
Lemma rsum_le {I} (f g : I -> R) l : (forall i, In i l -> (f i <= g i)%R) -> (rsum (map f l) <= rsum (map g l))%R.
Proof.
  induction l as [|i l IH]; intros H; cbn [map]; rewrite ?rsum_cons; [lra|].
  pose proof (H i (or_introl eq_refl)). pose proof (IH (fun j Hj => H j (or_intror Hj))). lra.
Qed.
(** the sums without one summand add up to the total, once per remaining summand *)
Lemma drop_sums (l : list R) : rsum (map (fun i => rsum (drop_at i l)) (seq 0 (length l))) = ((INR (length l) - 1) * rsum l)%R.
Proof.
  induction l as [|x l IH]; [cbn; lra|].
  cbn [length seq map]. rewrite rsum_cons. cbn [drop_at].
  rewrite <- seq_shift, map_map. cbn [drop_at].
  rewrite (map_ext _ (fun i => (x + rsum (drop_at i l))%R)) by (intros; apply rsum_cons).
  rewrite (rsum_plus (fun _ => x) (fun i => rsum (drop_at i l))), rsum_const, IH, seq_length, rsum_cons, S_INR. lra.
Qed.
Lemma length_drop {A} (l : list A) : forall i, i < length l -> length (drop_at i l) = length l - 1.
Proof. induction l as [|x l IH]; intros [|i] H; cbn [length drop_at] in *; try lia. rewrite IH by lia. lia. Qed.
Lemma In_drop {A} (l : list A) : forall i x, In x (drop_at i l) -> In x l.
Proof. induction l as [|y l IH]; intros [|i] x H; cbn in *; try tauto. destruct H as [->|H]; [left; reflexivity|right; eapply IH, H]. Qed.
Lemma map_drop {A B} (f : A -> B) (l : list A) : forall i, map f (drop_at i l) = drop_at i (map f l).
Proof. induction l as [|x l IH]; intros [|i]; cbn [drop_at map]; try reflexivity. rewrite IH. reflexivity. Qed.

(** the logarithm of an average is at least the average of the logarithms *)
Lemma jensen {I} (a : I -> R) l : l <> [] -> (forall i, In i l -> (0 < a i)%R) ->
  (rsum (map (fun i => ln (a i)) l) / INR (length l) <= ln (rsum (map a l) / INR (length l)))%R.
Proof.
  intros Hl Ha. assert (Hn : (0 < INR (length l))%R) by (apply lt_0_INR; destruct l; [congruence|cbn; lia]).
  assert (Hc : (0 < rsum (map a l) / INR (length l))%R) by (apply Rdiv_lt_0_compat; [apply (rsum_pos a l Hl Ha)|exact Hn]).
  set (c := (rsum (map a l) / INR (length l))%R) in *.
  assert (H : (rsum (map (fun i => ln (a i)) l) <= rsum (map (fun i => / c * a i + (ln c - 1)) l))%R).
  { apply rsum_le. intros i Hi. apply ln_tangent; auto. }
  rewrite (rsum_plus (fun i => / c * a i)%R (fun _ => ln c - 1)%R), rsum_scale, rsum_const in H.
  assert (E : rsum (map a l) = (c * INR (length l))%R) by (unfold c; field; lra).
  rewrite E in H. apply Rmult_le_reg_r with (INR (length l)); [exact Hn|].
  unfold Rdiv. rewrite Rmult_assoc, Rinv_l, Rmult_1_r by lra.
  eapply Rle_trans; [exact H|]. right. field. lra.
Qed.

Definition average (l : list R) : R := (rsum l / INR (length l))%R.
Lemma leave_one_out l : 2 <= length l -> (forall x, In x l -> (0 < x)%R) ->
  (rsum (map (fun i => ln (average (drop_at i l))) (seq 0 (length l))) / INR (length l) <= ln (average l))%R.
Proof.
  intros Hl Hp. pose proof (jensen (fun i => average (drop_at i l)) (seq 0 (length l))) as J.
  rewrite seq_length in J. eapply Rle_trans; [apply J|].
  - destruct l; [cbn in Hl; lia|discriminate].
  - intros i Hi. apply in_seq in Hi. unfold average.
    assert (HL : length (drop_at i l) = length l - 1) by (apply length_drop; lia).
    apply Rdiv_lt_0_compat; [|apply lt_0_INR; lia].
    rewrite <- (map_id (drop_at i l)). apply rsum_pos; [intros E; rewrite E in HL; cbn in HL; lia|].
    intros x Hx. apply Hp. eapply In_drop, Hx.
  - right. f_equal. unfold average at 2.
    assert (Hn1 : (INR (length l - 1) = INR (length l) - 1)%R) by (rewrite minus_INR by lia; reflexivity).
    assert (Hn : (1 < INR (length l))%R) by (apply lt_1_INR; lia).
    rewrite (map_ext_in _ (fun i => / (INR (length l) - 1) * rsum (drop_at i l))%R).
    + rewrite rsum_scale, drop_sums. field. lra.
    + intros i Hi. apply in_seq in Hi. unfold average. rewrite length_drop by lia. rewrite Hn1. unfold Rdiv. ring.
Qed.

(** *** expectations over independent repetitions *)
Section Law.
  Context {A : Type} (mu : (A -> R) -> R).
  Context (mu_mono : forall f g, (forall a, (f a <= g a)%R) -> (mu f <= mu g)%R)
          (mu_plus : forall f g, mu (fun a => f a + g a)%R = (mu f + mu g)%R)
          (mu_scale : forall f c, mu (fun a => c * f a)%R = (c * mu f)%R)
          (mu_const : forall c, mu (fun _ => c) = c).
  Fixpoint En (n : nat) (F : list A -> R) : R :=
    match n with 0 => F [] | S n' => mu (fun a => En n' (fun l => F (a :: l))) end.
  Lemma mu_ext f g : (forall a, f a = g a) -> mu f = mu g.
  Proof. intros H. apply Rle_antisym; apply mu_mono; intros a; rewrite H; lra. Qed.
  Lemma En_mono n : forall F G, (forall l, length l = n -> (F l <= G l)%R) -> (En n F <= En n G)%R.
  Proof. induction n as [|n IH]; intros F G H; cbn [En]; [apply H; reflexivity|]. apply mu_mono. intros a. apply IH. intros l Hl. apply H. cbn. congruence. Qed.
  Lemma En_ext n F G : (forall l, length l = n -> F l = G l) -> En n F = En n G.
  Proof. intros H. apply Rle_antisym; apply En_mono; intros l Hl; rewrite H by exact Hl; lra. Qed.
  Lemma En_plus n : forall F G, En n (fun l => F l + G l)%R = (En n F + En n G)%R.
  Proof. induction n as [|n IH]; intros F G; cbn [En]; [reflexivity|]. rewrite <- mu_plus. apply mu_ext. intros a. apply IH. Qed.
  Lemma En_scale n c : forall F, En n (fun l => c * F l)%R = (c * En n F)%R.
  Proof. induction n as [|n IH]; intros F; cbn [En]; [reflexivity|]. rewrite <- mu_scale. apply mu_ext. intros a. apply IH. Qed.
  Lemma En_const n c : En n (fun _ => c) = c.
  Proof. induction n as [|n IH]; cbn [En]; [reflexivity|]. etransitivity; [|apply mu_const]. apply mu_ext. intros a. exact IH. Qed.
  Lemma En_sum n {I} (F : I -> list A -> R) is : En n (fun l => rsum (map (fun i => F i l) is)) = rsum (map (fun i => En n (F i)) is).
  Proof.
    induction is as [|i is IH]; [apply (En_const n 0%R)|]. cbn [map].
    rewrite rsum_cons, <- IH, <- En_plus. apply En_ext. intros l _. reflexivity.
  Qed.
  (** one repetition that is not looked at can be left out *)
  Lemma En_drop n : forall i F, i <= n -> En (S n) (fun l => F (drop_at i l)) = En n F.
  Proof.
    induction n as [|n IH]; intros [|i] F Hi; cbn [En drop_at].
    - apply mu_const.
    - lia.
    - etransitivity; [|apply (mu_const (mu (fun a => En n (fun l => F (a :: l)))))]. apply mu_ext. intros a. reflexivity.
    - apply mu_ext. intros a. change (mu (fun a0 => En n (fun l => F (a :: drop_at i (a0 :: l))))) with (En (S n) (fun l => F (a :: drop_at i l))).
      apply (IH i (fun l => F (a :: l))). lia.
  Qed.
  Theorem more (w : A -> R) n : (forall a, (0 < w a)%R) -> 0 < n ->
    (En n (fun l => ln (average (map w l))) <= En (S n) (fun l => ln (average (map w l))))%R.
  Proof.
    intros Hw Hn.
    apply Rle_trans with (En (S n) (fun l => / INR (S n) * rsum (map (fun i => ln (average (map w (drop_at i l)))) (seq 0 (S n)))))%R.
    - right. rewrite En_scale.
      rewrite (En_sum (S n) (fun i l => ln (average (map w (drop_at i l))))).
      rewrite (map_ext_in _ (fun _ => En n (fun l => ln (average (map w l))))).
      + rewrite rsum_const, seq_length. field. apply not_0_INR. lia.
      + intros i Hi. apply in_seq in Hi. apply (En_drop n i (fun l => ln (average (map w l)))). lia.
    - apply En_mono. intros l Hl. pose proof (leave_one_out (map w l)) as J. rewrite map_length, Hl in J.
      rewrite Rmult_comm.
      rewrite (map_ext _ (fun i => ln (average (drop_at i (map w l))))) by (intros i; rewrite map_drop; reflexivity).
      apply J; [lia|]. intros x Hx. apply in_map_iff in Hx. destruct Hx as (a & <- & _). apply Hw.
  Qed.
  (** Jensen's inequality for the average of [n] repetitions *)
  Theorem below (w : A -> R) n : (forall a, (0 < w a)%R) -> 0 < n -> (0 < mu w)%R ->
    (En n (fun l => ln (average (map w l))) <= ln (mu w))%R.
  Proof.
    intros Hw Hn HZ. set (Z := mu w) in *.
    assert (HS : forall m, En m (fun l => rsum (map w l)) = (INR m * Z)%R).
    { induction m as [|m IH]; [cbn; lra|]. cbn [En]. rewrite S_INR.
      transitivity (mu (fun a => w a + INR m * Z)%R).
      - apply mu_ext. intros a. rewrite <- IH. transitivity (En m (fun l => (fun _ => w a) l + rsum (map w l))%R); [reflexivity|].
        rewrite (En_plus m (fun _ => w a)), En_const. reflexivity.
      - rewrite (mu_plus w (fun _ => INR m * Z)%R), mu_const. fold Z. ring. }
    assert (Hi : (0 < INR n)%R) by (apply lt_0_INR; exact Hn).
    apply Rle_trans with (En n (fun l => (/ Z * / INR n) * rsum (map w l) + (ln Z - 1)))%R.
    - apply En_mono. intros l Hl. unfold average. rewrite map_length, Hl.
      eapply Rle_trans; [apply (ln_tangent _ Z); [|exact HZ]|right; unfold Rdiv; ring].
      apply Rdiv_lt_0_compat; [|exact Hi]. apply rsum_pos; [destruct l; [cbn in Hl; lia|discriminate]|]. intros; apply Hw.
    - right. rewrite (En_plus n (fun l => (/ Z * / INR n) * rsum (map w l))%R (fun _ => ln Z - 1)%R), En_scale, En_const, HS. field. lra.
  Qed.
End Law.

(** *** several calls *)
Section Calls.
  Context {L : lib} (M : measures L) (ML : measure_laws M) (MP : positive_sums M).
  Notation E := (expect M).
  Context (t : inf L) (c : pyval (T L)) (kws : dict (pyval (T L))) (s : st L).
  Context (Hnr : no_resample t) (Hs : clean s) (Hrep : repeatable t c kws).
  Definition of_out (g : out L -> R) (x : res (out L) * st L) : R := match fst x with Ok o => g o | Err _ => 0%R end.
  Definition law (g : out L -> R) : R := E (run t c kws s) (of_out g).
  Lemma E_ext_out {A} (u : stree L A) f g : (forall a, outcome u a -> f a = g a) -> E u f = E u g.
  Proof. intros H. apply Rle_antisym; apply (E_mono M MP); intros a Ha; rewrite (H a Ha); lra. Qed.
  Lemma E_plus {A} (u : stree L A) f g : E u (fun x => f x + g x)%R = (E u f + E u g)%R.
  Proof.
    induction u as [a|[d rep sh|] k IH]; cbn [expect]; [reflexivity| |lra].
    rewrite <- (int_plus M MP). apply (int_ext M ML). intros v. rewrite IH. ring.
  Qed.
  Lemma law_mono f g : (forall a, (f a <= g a)%R) -> (law f <= law g)%R.
  Proof. intros H. apply (E_mono M MP). intros [[o|e] s'] _; cbn; [apply H|lra]. Qed.
  Lemma law_plus f g : law (fun a => f a + g a)%R = (law f + law g)%R.
  Proof. unfold law. rewrite <- E_plus. apply E_ext_out. intros [[o|e] s'] _; cbn; lra. Qed.
  Lemma law_affine f a b : law (fun o => a * f o + b)%R = (a * law f + b)%R.
  Proof.
    unfold law. rewrite <- (E_affine M ML MP) by (apply nr_run, Hnr). apply E_ext_out.
    intros [[o|e] s'] Ho; cbn; [reflexivity|]. destruct (Hrep s (Err e) s' Hs Ho) as [[o Ho'] _]. discriminate.
  Qed.
  Lemma law_scale f a : law (fun o => a * f o)%R = (a * law f)%R.
  Proof.
    rewrite <- (Rplus_0_r (a * law f)), <- law_affine. apply Rle_antisym; apply law_mono; intros; lra.
  Qed.
  Lemma law_const b : law (fun _ => b) = b.
  Proof.
    transitivity (0 * law (fun _ => 0%R) + b)%R; [|ring]. rewrite <- law_affine. apply Rle_antisym; apply law_mono; intros; lra.
  Qed.
  Lemma session_snoc (s1 s2 s3 : st L) u d kw r : session s1 s2 -> outcome (run u d kw s2) (r, s3) -> session s1 s3.
  Proof. induction 1; intros; econstructor; try eassumption; [constructor|auto]. Qed.
  Lemma sd_E {A B} (R : A -> B -> Prop) f g (u : stree L A) v : same_draws R u v -> (forall a b, R a b -> f a = g b) -> E u f = E v g.
  Proof.
    induction 1 as [a b H|[d rep sh|] k k' H IH]; intros HR; cbn [expect]; [auto| |reflexivity].
    apply (int_ext M ML). intros x. rewrite IH by exact HR. reflexivity.
  Qed.
  Lemma law_any s1 g : session s s1 -> store s1 = store s -> E (run t c kws s1) (of_out g) = law g.
  Proof.
    intros H1 H2. unfold law.
    rewrite (sd_E _ (of_out g) (of_out g) _ _ (session_fresh s s1 t c kws Hs H1)) by (intros [a a'] [b b'] [H _]; cbn in H; subst; reflexivity).
    rewrite (sd_E _ (of_out g) (of_out g) _ _ (session_fresh s s t c kws Hs (session_nil s))) by (intros [a a'] [b b'] [H _]; cbn in H; subst; reflexivity).
    rewrite H2. reflexivity.
  Qed.
  Lemma several_law n : forall s1 F, session s s1 -> clean s1 -> store s1 = store s ->
    E (several n t c kws s1) (fun x => match fst x with Ok os => F os | Err _ => 0%R end) = En law n F.
  Proof.
    induction n as [|n IH]; intros s1 F H1 Hc H2; [reflexivity|].
    cbn [several En]. rewrite <- (law_any s1 _ H1 H2). unfold mbind at 1. rewrite (E_tbind M ML).
    apply E_ext_out. intros [r s2] Ho. destruct (Hrep s1 r s2 Hc Ho) as [[o ->] H3]. cbn [of_out fst].
    unfold mbind. rewrite (E_tbind M ML). rewrite <- (IH s2).
    - apply E_ext_out. intros [[os|e] s3] _; reflexivity.
    - eapply session_snoc; eassumption.
    - apply (scoped_all _ _ _ _ _ _ Ho), Hc.
    - congruence.
  Qed.
  Lemma several_log n : E (several n t c kws s) (log_average M) = En law n (fun os => ln (average (map (fun o => exp (lw M (out_lw o))) os))).
  Proof.
    rewrite <- (several_law n s _ (session_nil s) Hs eq_refl). apply E_ext_out. intros [[os|e] s'] _; [|reflexivity].
    unfold log_average, average. cbn [fst]. rewrite map_length. reflexivity.
  Qed.
  Theorem more_calls n : 0 < n -> (E (several n t c kws s) (log_average M) <= E (several (S n) t c kws s) (log_average M))%R.
  Proof.
    intros Hn. rewrite !several_log. apply more; [exact law_mono|exact law_plus|exact law_scale|exact law_const| |exact Hn]. intros; apply exp_pos.
  Qed.
  Theorem calls_below n : 0 < n -> (0 < E (run t c kws s) (weighted M (fun _ _ => 1%R)))%R ->
    (E (several n t c kws s) (log_average M) <= ln (E (run t c kws s) (weighted M (fun _ _ => 1%R))))%R.
  Proof.
    intros Hn. replace (E (run t c kws s) (weighted M (fun _ _ => 1%R))) with (law (fun o => exp (lw M (out_lw o)))).
    - intros HZ. rewrite several_log. apply below; [exact law_mono|exact law_plus|exact law_scale|exact law_const| |exact Hn|exact HZ]. intros; apply exp_pos.
    - apply E_ext_out. intros [[o|e] s'] _; [unfold weighted; cbn; ring|reflexivity].
  Qed.
End Calls.
