(** C77: what APG training reports. *)
From Coq Require Import Lra.
From Verif Require Import ApgReport SpecGibbsWeight Prop_Gibbs Prop_Sweeps Thm_GibbsWeight Thm_Systematic SystematicFacts Prop_Metrics Prop_GibbsWeight RunInv RunFacts TraceFacts Thm_Calls SpecParticles InstancesPop Prop_Particles Prop_Observed ApgWitness.
Close Scope R_scope.
Open Scope nat_scope.

(** ** C77 The averages that training prints *)

(** The batches [frames] are trained on one after the other, each with the parameters the batch before
    it left behind; [os]: what the sampler returned on each. *)
Inductive batches_run {L : lib} {P : Type} (call : P -> T L -> M L (out L)) (step : P -> out L -> res P) :
    P -> st L -> list (T L) -> list (out L) -> P -> st L -> Prop :=
| batches_nil p s : batches_run call step p s [] [] p s
| batches_cons p s f o s1 p1 frames os p2 s2 :
    returns (call p f) s o s1 -> step p o = Ok p1 -> batches_run call step p1 s1 frames os p2 s2 ->
    batches_run call step p s (f :: frames) (o :: os) p2 s2.

(** The sum of the numbers [l] divided by [n], and their mean; -inf if one of them is. *)
Definition quotient_of (l : list ereal) (n : nat) (x : ereal) : Prop :=
  (forall xs : list R, l = map Fin xs -> x = Fin (rsum xs / INR n)) /\ (In NInf l -> x = NInf).
Definition mean_of (l : list ereal) (x : ereal) : Prop := quotient_of l (length l) x.
Lemma esum_fin xs : esum (map Fin xs) = Fin (rsum xs).
Proof. induction xs as [|x xs IH]; [reflexivity|]. cbn [map]. unfold esum. cbn [fold_right]. fold (esum (map Fin xs)). rewrite IH. reflexivity. Qed.
Lemma esum_ninf l : In NInf l -> esum l = NInf.
Proof.
  induction l as [|x l IH]; intros H; [contradiction|]. unfold esum. cbn [fold_right]. fold (esum l). destruct H as [->|H]; [reflexivity|].
  rewrite (IH H). destruct x; reflexivity.
Qed.
Lemma ediv_quotient l n : quotient_of l n (ediv (esum l) n).
Proof. split; [intros xs ->; rewrite esum_fin; reflexivity|intros H; rewrite esum_ninf by exact H; reflexivity]. Qed.
Lemma emean_mean l : mean_of l (emean l).
Proof. apply ediv_quotient. Qed.

Lemma Forall2_len {A B} (R : A -> B -> Prop) l l' : Forall2 R l l' -> length l = length l'.
Proof. induction 1; cbn; congruence. Qed.
Lemma eadd_comm x y : eadd x y = eadd y x.
Proof. destruct x, y; cbn; try reflexivity. f_equal. apply Rplus_comm. Qed.
Lemma eadd_assoc x y z : eadd x (eadd y z) = eadd (eadd x y) z.
Proof. destruct x, y, z; cbn; try reflexivity. f_equal. ring. Qed.
Lemma eadd_0 x : eadd (Fin 0) x = x.
Proof. destruct x; cbn; [reflexivity|]. f_equal. apply Rplus_0_l. Qed.

Section Loop.
  Context {L : lib} (W : array_view L) {P : Type} (net : P -> nets L) (step : P -> out L -> res P).
  Context (wmean : T L -> T L -> T L) (node_sum : T L -> T L) (rs : resampler L) (num_sweeps T_ : nat).
  Notation call := (apg_call net wmean node_sum rs num_sweeps T_).
  Notation train := (train_file W net step wmean node_sum rs num_sweeps T_).
  Definition sums (m : metrics) (ms : list metrics) : metrics :=
    mkMetrics (eadd (m_ess m) (esum (map m_ess ms))) (eadd (m_log_p m) (esum (map m_log_p ms))) (eadd (m_loss m) (esum (map m_loss ms))).
  Lemma sums_nil m : sums m [] = m.
  Proof. destruct m. unfold sums. cbn. rewrite !(eadd_comm _ (Fin 0)), !eadd_0. reflexivity. Qed.
  Lemma sums_cons m m1 ms : sums (add_metrics m m1) ms = sums m (m1 :: ms).
  Proof. unfold sums, add_metrics. cbn. rewrite !eadd_assoc. reflexivity. Qed.

  Lemma train_file_runs smoke : forall frames p c m s m' p' c' e s',
    outcome (train smoke p c m frames s) (Ok (m', p', c', e), s') ->
    exists os ms, length os <= length frames /\ batches_run call step p s (firstn (length os) frames) os p' s' /\
      Forall2 (fun o m => batch_metrics W num_sweeps o = Ok m) os ms /\ m' = sums m ms /\ c' = c + length os /\
      (e = false -> length os = length frames) /\
      (e = true -> exists k, smoke = Some k /\ k <= c' /\ (forall j, 0 < j < length os -> c + j < k) /\ 0 < length os).
  Proof.
    induction frames as [|f frames IH]; intros p c m s m' p' c' e s' H; cbn [train_file] in H.
    - inversion H; subst. exists [], []. cbn. rewrite sums_nil. split; [lia|]. split; [constructor|]. split; [constructor|]. split; [reflexivity|]. split; [lia|]. split; [reflexivity|discriminate].
    - apply outcome_tbind in H. destruct H as ([[o|er] s1] & Ho & H); [|inversion H].
      destruct (step p o) as [p1|] eqn:Ep; cbn [rbind rmap] in H; [|inversion H].
      destruct (batch_metrics W num_sweeps o) as [m1|] eqn:Em; cbn [rbind rmap] in H; [|inversion H].
      destruct (match smoke with Some k => k <=? S c | None => false end) eqn:Es.
      + inversion H; subst. exists [o], [m1]. cbn [length firstn]. split; [lia|]. split; [eapply batches_cons; [exact Ho|exact Ep|constructor]|].
        split; [repeat constructor; exact Em|]. split; [rewrite <- sums_cons, sums_nil; reflexivity|]. split; [lia|]. split; [discriminate|].
        intros _. destruct smoke as [k|]; [|discriminate]. exists k. apply Nat.leb_le in Es. split; [reflexivity|]. split; [exact Es|]. split; [lia|lia].
      + destruct (IH _ _ _ _ _ _ _ _ _ H) as (os & ms & Hl & Hb & Hf & -> & -> & He1 & He2).
        exists (o :: os), (m1 :: ms). cbn [length firstn]. split; [lia|]. split; [eapply batches_cons; eassumption|].
        split; [constructor; assumption|]. split; [apply sums_cons|]. split; [lia|]. split; [intros E; rewrite (He1 E); reflexivity|].
        intros E. destruct (He2 E) as (k & -> & Hk & Hj & Hp). exists k. split; [reflexivity|]. split; [lia|]. split; [|lia].
        apply Nat.leb_gt in Es. intros [|[|j]] Hj'; [lia|lia|]. specialize (Hj (S j)). lia.
  Qed.
End Loop.

(** A file that is trained on completely: the printed numbers are the means, over the batches of the
    file, of the numbers of each batch. *)
Theorem C77_report : forall (L : lib) (W : array_view L) P net step wmean node_sum rs num_sweeps T_
    (p : P) counter frames s r p' counter' ended s',
  outcome (file_report W net step wmean node_sum rs num_sweeps T_ None p counter frames s) (Ok (r, p', counter', ended), s') ->
  exists os ms,
    batches_run (apg_call net wmean node_sum rs num_sweeps T_) step p s frames os p' s' /\
    Forall2 (fun o m => batch_metrics W num_sweeps o = Ok m) os ms /\
    ended = false /\
    exists m, r = Some m /\ mean_of (map m_ess ms) (m_ess m) /\ mean_of (map m_log_p ms) (m_log_p m) /\ mean_of (map m_loss ms) (m_loss m).
Proof.
  intros L W P net step wmean node_sum rs n T_ p c frames s r p' c' e s' H. unfold file_report in H.
  apply outcome_tbind in H. destruct H as ([[[[[m p1] c1] e1]|er] s1] & Ho & H); [|inversion H]. inversion H; subst. clear H.
  destruct (train_file_runs W net step wmean node_sum rs n T_ None _ _ _ _ _ _ _ _ _ _ Ho) as (os & ms & _ & Hb & Hf & -> & _ & He1 & He2).
  destruct e; [destruct (He2 eq_refl) as (k & E & _); discriminate|]. exists os, ms. rewrite (He1 eq_refl), firstn_all in Hb.
  split; [exact Hb|]. split; [exact Hf|]. split; [reflexivity|]. eexists. split; [reflexivity|]. unfold sums, cleanup, metrics0. cbn [m_ess m_log_p m_loss]. rewrite !eadd_0.
  assert (El : length frames = length ms) by (rewrite <- (He1 eq_refl); eapply Forall2_len, Hf). rewrite El.
  unfold mean_of. rewrite !map_length. split; [apply ediv_quotient|]. split; apply ediv_quotient.
Qed.
Print Assumptions C77_report.

(** A smoke test that ends in a file has trained on some of its batches, but prints the sums
    divided by the number of all batches of the file. *)
Theorem C77_smoke_refuted : forall (L : lib) (W : array_view L) P net step wmean node_sum rs num_sweeps T_
    smoke (p : P) counter frames s r p' counter' s',
  outcome (file_report W net step wmean node_sum rs num_sweeps T_ (Some smoke) p counter frames s) (Ok (r, p', counter', true), s') ->
  exists os ms m,
    length os <= length frames /\ (forall j, 0 < j < length os -> counter + j < smoke) /\ smoke <= counter + length os /\
    batches_run (apg_call net wmean node_sum rs num_sweeps T_) step p s (firstn (length os) frames) os p' s' /\
    Forall2 (fun o m => batch_metrics W num_sweeps o = Ok m) os ms /\ r = Some m /\
    quotient_of (map m_log_p ms) (length frames) (m_log_p m) /\ quotient_of (map m_loss ms) (length frames) (m_loss m) /\
    (forall xs, map m_loss ms = map Fin xs -> rsum xs <> 0%R -> length os < length frames -> ~ mean_of (map m_loss ms) (m_loss m)).
Proof.
  intros L W P net step wmean node_sum rs n T_ k p c frames s r p' c' s' H. unfold file_report in H.
  apply outcome_tbind in H. destruct H as ([[[[[m p1] c1] e1]|er] s1] & Ho & H); [|inversion H]. inversion H; subst. clear H.
  destruct (train_file_runs W net step wmean node_sum rs n T_ (Some k) _ _ _ _ _ _ _ _ _ _ Ho) as (os & ms & Hl & Hb & Hf & -> & -> & _ & He).
  destruct (He eq_refl) as (k' & [= <-] & Hk & Hj & Hp). exists os, ms. eexists. split; [exact Hl|]. split; [exact Hj|]. split; [exact Hk|]. split; [exact Hb|].
  split; [exact Hf|]. split; [reflexivity|]. unfold sums, cleanup, metrics0. cbn [m_ess m_log_p m_loss]. rewrite !eadd_0. split; [apply ediv_quotient|]. split; [apply ediv_quotient|].
  assert (El : length ms = length os) by (symmetry; eapply Forall2_len, Hf).
  intros xs Ex Hx Hlt [E _]. specialize (E xs Ex). rewrite Ex, esum_fin in E. cbn [ediv] in E. injection E as E.
  assert (Eo : length xs = length os) by (rewrite <- El, <- (map_length m_loss ms), Ex, map_length; reflexivity). rewrite map_length, Eo in E.
  set (x := rsum xs) in *.
  assert (H1 : INR (length os) <> 0%R) by (apply not_0_INR; lia). assert (H2 : INR (length frames) <> 0%R) by (apply not_0_INR; lia).
  assert (E2 : INR (length os) = INR (length frames)).
  { apply (Rmult_eq_reg_l x); [|exact Hx]. apply (f_equal (fun y => y * INR (length os) * INR (length frames))%R) in E.
    replace (x / INR (length frames) * INR (length os) * INR (length frames))%R with (x * INR (length os))%R in E by (field; assumption).
    replace (x / INR (length os) * INR (length os) * INR (length frames))%R with (x * INR (length frames))%R in E by (field; assumption). exact E. }
  apply INR_eq in E2. lia.
Qed.
Print Assumptions C77_smoke_refuted.

(** ** the numbers of one batch *)
Lemma log_joint_full {L : lib} (HL : lib_laws L) sd bd rep (tr : trace L) x : wf_dict tr -> log_joint sd bd rep (dkeys tr) tr = Ok x ->
  x = logp_sum sd bd (fun _ _ => true) tr.
Proof.
  intros Hwf H. apply log_joint_sum in H; [|exact HL|exact Hwf|exact Hwf]. rewrite H. apply (logp_sum_ext L). intros a r Hin. apply mem_In.
  apply in_map with (f := fst) in Hin. exact Hin.
Qed.

(** The reported loss is the only entry of the loss the sampler returned.  The reported effective
    sample size is 0 before the first sweep, and then the mean, over the batch, of
    (sum w)^2 / sum w^2 over the particles, for the weights the last step received. *)
Theorem C77_batch : forall (L : lib) (W : array_view L) num_sweeps (o : out L) m, batch_metrics W num_sweeps o = Ok m ->
  (exists l, out_loss o = Some l /\ entries (to_arr W (detach L l)) = [m_loss m]) /\
  (num_sweeps = 0 -> m_ess m = Fin 0) /\
  (0 < num_sweeps -> exists px, out_px o = Some px /\
    let a := to_arr W (detach L (px_lw px)) in
    (forall b, In b (indices (tl (shape a))) -> alive (fiber0 a b)) ->
    mean_of (map (fun b => let w := map eexp (fiber0 a b) in Fin (rsum w * rsum w / rsum (map (fun x => x * x) w))%R) (indices (tl (shape a)))) (m_ess m)).
Proof.
  intros L W n o m H. unfold batch_metrics in H.
  destruct (0 <? n) eqn:En.
  - destruct (out_px o) as [px|]; cbn [rbind] in H; [|discriminate]. destruct (log_joint _ _ _ _ _) as [lp|]; cbn [rbind] in H; [|discriminate].
    destruct (out_loss o) as [l|]; [|discriminate]. destruct (entries (to_arr W (detach L l))) as [|x [|? ?]] eqn:E; try discriminate. injection H as <-.
    apply Nat.ltb_lt in En. split; [exists l; split; [reflexivity|exact E]|]. split; [lia|]. intros _. exists px. split; [reflexivity|].
    intros a Ha. cbn [m_ess]. unfold entries at 1. fold a. cbn [ess_array shape].
    replace (map (at_ (ess_array a)) (indices (tl (shape a)))) with (map (fun b => let w := map eexp (fiber0 a b) in Fin (rsum w * rsum w / rsum (map (fun x => x * x) w))%R) (indices (tl (shape a)))).
    + apply emean_mean.
    + apply map_ext_in. intros b Hb. cbn [ess_array at_]. rewrite (C34_ess _ (Ha b Hb)). cbn zeta. rewrite !map_map. reflexivity.
  - cbn [rbind] in H. destruct (log_joint _ _ _ _ _) as [lp|]; cbn [rbind] in H; [|discriminate].
    destruct (out_loss o) as [l|]; [|discriminate]. destruct (entries (to_arr W (detach L l))) as [|x [|? ?]] eqn:E; try discriminate. injection H as <-.
    apply Nat.ltb_ge in En. split; [exists l; split; [reflexivity|exact E]|]. split; [reflexivity|lia].
Qed.
Print Assumptions C77_batch.

(** The reported [log_p] is the log-joint of the returned sample and the frames: the positions under
    their chain prior, the digits under theirs, the frames given both; averaged over particles and
    batch. *)
Theorem C77_log_p : forall (L : lib) (W : array_view L) P net (p : P) same wmean node_sum rs num_sweeps T_ fr st,
  gibbs_run (net p) same rs T_ [("frames", VTensor fr)] (apg_kwargs (L := L)) st -> n_frames L (net p) fr = T_ ->
  (forall x, same x x = true) -> keeps_observed rs ->
  forall o st' m, returns (apg_call net wmean node_sum rs num_sweeps T_ p fr) st o st' -> batch_metrics W num_sweeps o = Ok m ->
  let where_ i := value_at (out_trace o) (z_where (Z.of_nat i) (Z.of_nat num_sweeps)) in
  let what := value_at (out_trace o) (z_what (Z.of_nat num_sweeps)) in
  let log_joint := tsum (map (bsum L (VInt 0) (VInt 1))
    (map (fun i => logp L (match i with O => prior_where0 L (net p) | S j => prior_wheret L (net p) (where_ j) end) (where_ i)) (seq 0 T_)
     ++ [logp L (prior_what L (net p)) what; logp L (recon L (net p) (map where_ (seq 0 T_)) what) fr])) in
  mean_of (entries (to_arr W (detach L log_joint))) (m_log_p m).
Proof.
  intros L W P net p same wmean node_sum rs n T_ fr st Hg Hn Hsame Hobs o st' m H Hm where_ what jd.
  enough (E0 : m_log_p m = detached_mean W jd) by (rewrite E0; apply emean_mean). unfold jd. clear jd.
  assert (Hlog : exists lp, log_joint (VInt 0) (VInt 1) (VBool false) (dkeys (out_trace o)) (out_trace o) = Ok lp /\ m_log_p m = detached_mean W lp).
  { unfold batch_metrics in Hm. destruct (if 0 <? n then _ else _) as [ess|]; cbn [rbind] in Hm; [|discriminate].
    destruct (log_joint _ _ _ _ _) as [lp|]; cbn [rbind] in Hm; [|discriminate]. destruct (out_loss o); [|discriminate].
    destruct (entries _) as [|x [|? ?]]; try discriminate. injection Hm as <-. exists lp. split; reflexivity. }
  destruct Hlog as (lp & Hlp & ->). f_equal.
  assert (HL : lib_laws L) by apply Hg.
  pose proof (C47_runs L (net p) same wmean node_sum rs T_ _ _ st n Hg _ _ H) as (Hwf & Hk & _).
  apply (log_joint_full HL) in Hlp; [|exact Hwf]. rewrite Hlp.
  assert (Hd : exists v, map (density_at (out_trace o)) (posterior_addresses T_ T_ n) = joint_logp (net p) T_ fr v T_ n /\
    (forall a, In a (posterior_addresses T_ T_ n) -> a <> "recon" -> value_at (out_trace o) a = v a)).
  { unfold apg_call, gibbs_sweeps in H. destruct n as [|n].
    - destruct (C72_initial_weight L (net p) same wmean rs T_ _ _ st fr Hg eq_refl Hn o st' H) as (px & l & _ & Hw).
      cbn zeta in Hw. destruct Hw as (_ & _ & H1 & H2). eexists. split; [exact H1|exact H2].
    - cbn [sweeps] in H. rewrite Nat.eqb_refl in H.
      destruct (C72_step_weight L (net p) same wmean node_sum rs T_ _ _ st (S n) n T_ fr Hg eq_refl Hn Hsame Hobs ltac:(lia) ltac:(lia) o st' H)
        as (kwq & prev & st1 & _ & _ & _ & px & F & _ & Hw). cbn zeta in Hw. destruct Hw as (_ & _ & H1 & H2 & _). eexists. split; [exact H1|exact H2]. }
  destruct Hd as (v & Hd & Hv).
  assert (Hpos : 0 < T_) by apply (gr_pos _ _ _ _ _ _ _ Hg).
  assert (Hset : forall a, In a (dkeys (out_trace o)) <-> In a (posterior_addresses T_ T_ n)).
  { intros a. rewrite Hk. unfold posterior_addresses. rewrite Nat.eqb_refl.
    replace (map (current_where (Z.of_nat T_) (Z.of_nat n)) (seq 0 T_)) with (map (fun t => z_where (Z.of_nat t) (Z.of_nat n)) (seq 0 T_)); [reflexivity|].
    apply map_ext_in. intros i Hi. apply in_seq in Hi. unfold current_where. destruct (Z.leb_spec (Z.of_nat i) (Z.of_nat T_)); [reflexivity|lia]. }
  rewrite (logp_sum_addresses HL _ _ _ (posterior_addresses T_ T_ n) Hwf (posterior_NoDup wmean node_sum T_ fr T_ n) Hset), Hd.
  assert (Hpa : forall i, i < T_ -> position_at T_ n i = z_where (Z.of_nat i) (Z.of_nat n)).
  { intros i Hi. unfold position_at, current_where. destruct (Z.leb_spec (Z.of_nat i) (Z.of_nat T_)); [reflexivity|lia]. }
  assert (Hw : forall i, i < T_ -> v (z_where (Z.of_nat i) (Z.of_nat n)) = where_ i).
  { intros i Hi. unfold where_. symmetry. apply Hv; [|discriminate]. apply Hset, Hk, in_app_iff. left. apply in_map_iff. exists i. split; [reflexivity|]. apply in_seq. lia. }
  assert (Hwh : v (digits_at T_ T_ n) = what).
  { unfold what, digits_at. rewrite Nat.eqb_refl. symmetry. apply Hv; [|discriminate]. apply Hset, Hk, in_app_iff. right. left. reflexivity. }
  unfold joint_logp. rewrite Hwh.
  assert (E1 : map (fun i => logp L (position_prior (net p) v T_ n i) (v (position_at T_ n i))) (seq 0 T_) =
    map (fun i => logp L (match i with O => prior_where0 L (net p) | S j => prior_wheret L (net p) (where_ j) end) (where_ i)) (seq 0 T_)).
  { apply map_ext_in. intros i Hi. apply in_seq in Hi. rewrite Hpa, Hw by lia. destruct i as [|j]; [reflexivity|]. unfold position_prior. rewrite Nat.min_l, Hw by lia. reflexivity. }
  assert (E2 : map (fun i => v (position_at T_ n i)) (seq 0 T_) = map where_ (seq 0 T_)).
  { apply map_ext_in. intros i Hi. apply in_seq in Hi. rewrite Hpa, Hw by lia. reflexivity. }
  rewrite E1, E2. reflexivity.
Qed.
Print Assumptions C77_log_p.

(** ** the effective sample size *)
Lemma fiber_shape (a : arr) b : length (fiber0 a b) = nth 0 (shape a) 0.
Proof. unfold fiber0. rewrite map_length, seq_length. reflexivity. Qed.
Lemma fiber_constant (a : arr) b x y : In x (fiber0 (log_softmax (mean_weight a)) b) -> In y (fiber0 (log_softmax (mean_weight a)) b) -> x = y.
Proof.
  assert (G : forall x, In x (fiber0 (log_softmax (mean_weight a)) b) -> x = elog (nth 0 (softmax (fiber0 (mean_weight a) b)) 0%R)).
  { clear. intros x Hx. unfold fiber0 in Hx at 1. apply in_map_iff in Hx. destruct Hx as (k & <- & Hk). cbn [log_softmax at_ shape mean_weight] in *. cbn [nth tl].
    apply in_seq in Hk. f_equal. unfold softmax, fiber0. cbn [shape at_ mean_weight tl]. rewrite !map_map.
    set (z := fun k : nat => (_ / _)%R). assert (E : map z (seq 0 (nth 0 (shape a) 0)) = repeat (z 0) (nth 0 (shape a) 0)).
    { rewrite <- (seq_length (nth 0 (shape a) 0) 0) at 2. generalize (seq 0 (nth 0 (shape a) 0)). induction l as [|i l IH]; [reflexivity|]. cbn [map length repeat]. rewrite IH. reflexivity. }
    rewrite E. rewrite !(nth_indep _ 0%R (z 0)) by (rewrite repeat_length; lia). rewrite !nth_repeat. reflexivity. }
  intros Hx Hy. rewrite (G x Hx), (G y Hy). reflexivity.
Qed.
Lemma esum_const c l : (forall x, In x l -> x = Fin c) -> esum l = Fin (INR (length l) * c)%R.
Proof.
  induction l as [|x l IH]; intros H; [cbn; f_equal; ring|]. cbn [esum fold_right]. fold (esum l). rewrite IH by (intros y Hy; apply H; right; exact Hy).
  rewrite (H x (or_introl eq_refl)). cbn [eadd length]. rewrite S_INR. f_equal. ring.
Qed.
Lemma emean_const c l : l <> [] -> (forall x, In x l -> x = Fin c) -> emean l = Fin c.
Proof. intros Hl H. unfold emean. rewrite (esum_const c) by exact H. cbn [ediv]. f_equal. field. apply not_0_INR. destruct l; [contradiction|discriminate]. Qed.

(** With at least one sweep the reported effective sample size says nothing: it is computed from the
    weights with which the last step started.  These were just resampled and normalised, so they
    are all equal, and it is the number of particles. *)
Theorem C77_ess_constant : forall (L : lib) (W : array_view L) P net (p : P) same wmean node_sum num_sweeps T_ fr st,
  gibbs_run (net p) same (systematic W true) T_ [("frames", VTensor fr)] (apg_kwargs (L := L)) st -> n_frames L (net p) fr = T_ ->
  (forall x, same x x = true) ->
  (forall x, to_arr W (detach L x) = to_arr W x) -> (forall x, to_arr W (to_tensor L x) = to_arr W x) ->
  0 < num_sweeps ->
  forall o st' m, returns (apg_call net wmean node_sum (systematic W true) num_sweeps T_ p fr) st o st' -> batch_metrics W num_sweeps o = Ok m ->
  exists px, out_px o = Some px /\
    let a := to_arr W (px_lw px) in
    (forall b x y, In x (fiber0 a b) -> In y (fiber0 a b) -> x = y) /\
    (indices (tl (shape a)) <> [] -> (forall b, In b (indices (tl (shape a))) -> alive (fiber0 a b)) ->
     m_ess m = Fin (INR (nth 0 (shape a) 0))).
Proof.
  intros L W P net p same wmean node_sum n T_ fr st Hg Hn Hsame Hdet Htt Hpos o st' m H Hm.
  destruct n as [|n]; [lia|]. clear Hpos. unfold apg_call, gibbs_sweeps in H. cbn [sweeps] in H. rewrite Nat.eqb_refl in H.
  destruct Hg as [H1 H2 H3 H4 H5 _ H6 H7 H8 H9].
  destruct (step_weighed H1 H2 H3 (net p) same wmean node_sum (systematic W true) H4 H5 T_ H6 [("frames", VTensor fr)] fr eq_refl Hn Hsame (C72_systematic L W true) (S n) n T_
    apg_kwargs st o st' ltac:(lia) ltac:(lia) H7 (conj H8 H9) H) as (_ & kwq & prev & st1 & Hwk & _ & _ & Hprev & px & F & Epx & Hw).
  cbn zeta in Hw. destruct Hw as (_ & _ & _ & _ & _ & Hlw & _).
  exists px. split; [exact Epx|]. cbn zeta.
  assert (Ea : exists lw1, to_arr W (px_lw px) = log_softmax (mean_weight lw1)).
  { assert (E : to_arr W (px_lw px) = to_arr W (out_lw prev)) by (rewrite Hlw; destruct (is_tensor L (out_lw prev)); [apply Hdet|apply Htt]). rewrite E.
    assert (Hp : exists T', T_ = S T') by (destruct T_; [lia|eauto]). destruct Hp as [T' ->]. cbn [sweep_steps] in Hprev.
    unfold resampled in Hprev. apply run_resample_returns in Hprev; [|apply Hwk].
    destruct Hprev as (qo & s1 & items & lw2 & c1 & c2 & st2 & _ & _ & Hr & _ & _ & _ & _ & ->). rewrite subs_lw. cbn [out_lw].
    rewrite passable_systematic in Hr. cbn [rs_call systematic] in Hr. apply outcome_path in Hr. destruct Hr as [ds Hr]. apply systematic_path in Hr.
    destruct Hr as (_ & _ & _ & v & lw1 & _ & _ & _ & _ & _ & E2). rewrite E2. eauto. }
  destruct Ea as (lw1 & Ea).
  assert (Hconst : forall b x y, In x (fiber0 (to_arr W (px_lw px)) b) -> In y (fiber0 (to_arr W (px_lw px)) b) -> x = y).
  { rewrite Ea. intros b x y. apply fiber_constant. }
  split; [exact Hconst|]. intros Hne Hal.
  unfold batch_metrics in Hm. cbn [Nat.ltb Nat.leb] in Hm. rewrite Epx in Hm. cbn [rbind] in Hm.
  destruct (log_joint _ _ _ _ _) as [lp|]; cbn [rbind] in Hm; [|discriminate]. destruct (out_loss o); [|discriminate].
  destruct (entries (to_arr W (detach L t))) as [|x [|? ?]]; try discriminate. injection Hm as <-. cbn [m_ess]. rewrite Hdet.
  apply emean_const.
  - unfold entries. cbn [ess_array shape]. intros E. apply map_eq_nil in E. contradiction.
  - intros y Hy. unfold entries in Hy. apply in_map_iff in Hy. destruct Hy as (b & <- & Hb). cbn [ess_array shape at_] in *. f_equal.
    rewrite <- (fiber_shape (to_arr W (px_lw px)) b). apply C34_maximal; [apply Hal, Hb|apply Hconst].
Qed.
Print Assumptions C77_ess_constant.

(** The hypotheses of the theorems above are met by a run with two particles, one frame and one sweep,
    resampled systematically. *)
Example C77_hypotheses : gibbs_run netsV (fun _ _ => true) (systematic PopV true) 1 [("frames", VTensor (kt 1))] (apg_kwargs (L := PopL)) stV /\
  n_frames PopL netsV (kt 1) = 1 /\ keeps_observed (systematic PopV true) /\
  (forall x, to_arr PopV (detach PopL x) = to_arr PopV x) /\ (forall x, to_arr PopV (to_tensor PopL x) = to_arr PopV x) /\
  exists o s' m, returns (apg_call (fun _ : unit => netsV) meanV (fun x => x) (systematic PopV true) 1 1 tt (kt 1)) stV o s' /\ batch_metrics PopV 1 o = Ok m.
Proof.
  split; [|split; [reflexivity|split; [apply C72_systematic|split; [reflexivity|split; [reflexivity|]]]]].
  - constructor.
    + exact PopL_laws.
    + constructor; [intros [a|r] [b|q]; reflexivity..|intros sd bd d [a|r]; reflexivity].
    + reflexivity.
    + apply C47_systematic.
    + reflexivity.
    + exists (kt 1). split; reflexivity.
    + lia.
    + split; [repeat constructor; cbn; intuition discriminate|]. intros k Hk Hin. cbn in Hk, Hin. intuition (subst; discriminate).
    + reflexivity.
    + reflexivity.
  - destruct (metrics_some l1 (l3 (l2 l1))) as (m & Hm). eexists _, _, m. split; [exact whole|exact Hm].
Qed.

Notation trainV := (file_report PopV (fun _ : unit => netsV) (fun p _ => Ok p) meanV (fun x => x) (systematic PopV true) 1 1).
Example C77_report_case : exists r s', outcome (trainV None tt 0 [kt 1] stV) (Ok (r, tt, 1, false), s').
Proof.
  destruct (metrics_some l1 (l3 (l2 l1))) as (m & Hm). change (r4 l1 (l3 (l2 l1))) with last in Hm.
  eexists _, _. unfold file_report. eapply outcome_seq.
  - cbn [train_file]. eapply outcome_seq; [exact whole|]. cbn beta iota. rewrite Hm. cbn [rmap rbind]. constructor.
  - constructor.
Qed.
Example C77_smoke_case : exists r s', outcome (trainV (Some 1) tt 0 [kt 1; kt 1] stV) (Ok (r, tt, 1, true), s').
Proof.
  destruct (metrics_some l1 (l3 (l2 l1))) as (m & Hm). change (r4 l1 (l3 (l2 l1))) with last in Hm.
  eexists _, _. unfold file_report. eapply outcome_seq.
  - cbn [train_file]. eapply outcome_seq; [exact whole|]. cbn beta iota. rewrite Hm. cbn [rmap rbind Nat.leb]. constructor.
  - constructor.
Qed.

(** The particles of this run end with weights in the proportion 1 : 3.  Their effective sample size is
    8/5, but 2 is reported. *)
Theorem C77_ess_refuted : exists o s' m,
  returns (apg_call (fun _ : unit => netsV) meanV (fun x => x) (systematic PopV true) 1 1 tt (kt 1)) stV o s' /\ batch_metrics PopV 1 o = Ok m /\
  m_ess m = Fin 2 /\ entries (ess_array (to_arr PopV (out_lw o))) = [Fin (8 / 5)].
Proof.
  destruct C77_hypotheses as (Hg & Hn & _ & Hd & Ht & _).
  destruct started as (f & (F0 & F1) & El). destruct (metrics_some l1 f) as (m & Hm). rewrite <- El in Hm.
  exists (fst last), (snd last), m. split; [exact whole|]. split; [exact Hm|]. split.
  - destruct (C77_ess_constant PopL PopV unit (fun _ => netsV) tt (fun _ _ => true) meanV (fun x => x) 1 1 (kt 1) stV Hg Hn (fun _ => eq_refl) Hd Ht
      ltac:(lia) _ _ m whole Hm) as (px & Epx & _ & E).
    destruct (received l1 f F0 F1) as (px' & Epx' & Es & Ef). rewrite <- El, Epx in Epx'. injection Epx' as <-. rewrite Es in E.
    cbn [tl indices flat_map map app seq nth] in E. rewrite E; [reflexivity|discriminate|]. intros b [<-|[]]. eexists. rewrite Ef. left. reflexivity.
  - destruct (returned l1 f F0 F1) as (a & E). rewrite El, E. do 2 f_equal. rewrite C34_ess by (exists a; left; reflexivity).
    unfold rsum. cbn [map eexp fold_right]. unfold Rminus. rewrite !exp_plus, exp_Ropp, !exp_ln by lra. pose proof (exp_pos a). field. nra.
Qed.
Print Assumptions C77_ess_refuted.
