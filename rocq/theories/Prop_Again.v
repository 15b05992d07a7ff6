(** C91: resampling particles of equal weight. *)
From Coq Require Import Lra.
From Verif Require Import SystematicFacts Thm_Systematic InstancesArr.
Close Scope R_scope.
Open Scope nat_scope.

(** ** C91 Resampling particles of equal weight changes nothing *)

(** the normalised weights of [n] equal weights *)
Lemma softmax_equal lw i : alive lw -> (forall x y, In x lw -> In y lw -> x = y) -> i < length lw -> nth i (softmax lw) 0%R = (/ INR (length lw))%R.
Proof.
  intros (r & Hr) He Hi. assert (Hl : lw = repeat (Fin r) (length lw)).
  { clear Hi. assert (H : forall x, In x lw -> x = Fin r) by (intros x Hx; apply He; assumption). clear He Hr. induction lw as [|x lw IH]; [reflexivity|].
    cbn. rewrite (H x (or_introl eq_refl)). f_equal. apply IH. intros y Hy. apply H. right. exact Hy. }
  revert Hi. rewrite Hl, repeat_length. set (n := length lw). intros Hi. unfold softmax.
  assert (Hs : rsum (map eexp (repeat (Fin r) n)) = (INR n * exp r)%R).
  { clear. induction n as [|n IH]; [cbn; lra|]. rewrite S_INR. cbn [repeat map eexp]. rewrite rsum_cons, IH. lra. }
  rewrite Hs. rewrite (nth_indep _ 0%R ((fun x => (eexp x / (INR n * exp r))%R) (Fin r))) by (rewrite map_length, repeat_length; exact Hi).
  rewrite (map_nth (fun x => (eexp x / (INR n * exp r))%R)).
  assert (Hn : nth i (repeat (Fin r) n) (Fin r) = Fin r) by (clear; revert i; induction n; intros [|i]; cbn; auto).
  rewrite Hn. cbn [eexp]. assert (INR n <> 0)%R by (apply not_0_INR; lia). pose proof (exp_pos r). field. split; lra.
Qed.
Lemma psum_equal lw i : alive lw -> (forall x y, In x lw -> In y lw -> x = y) -> i <= length lw -> psum (softmax lw) i = (INR i / INR (length lw))%R.
Proof.
  intros Ha He. induction i as [|i IH]; intros Hi; [unfold psum; cbn; lra|].
  rewrite psum_S by (rewrite softmax_length; lia). rewrite IH by lia. rewrite (softmax_equal _ _ Ha He) by lia. rewrite S_INR.
  assert (INR (length lw) <> 0)%R by (apply not_0_INR; lia). field. assumption.
Qed.

(** Particles of equal weight: whatever the offset in (0, 1), the ancestor of every particle is itself. *)
Theorem C91_equal : forall lw u, alive lw -> (0 < u < 1)%R -> (forall x y, In x lw -> In y lw -> x = y) ->
  ancestors_of lw u = seq 0 (length lw).
Proof.
  intros lw u Ha Hu He. unfold ancestors_of, usteps. rewrite map_map. rewrite <- (map_id (seq 0 (length lw))) at 2. apply map_ext_in. intros k Hk. apply in_seq in Hk.
  change (map (fun x => (x / rmax (cumsum (softmax lw)))%R) (cumsum (softmax lw))) with (ncs (softmax lw)).
  assert (H0 : forall x, In x (softmax lw) -> (0 <= x)%R) by (intros x; apply softmax_ge0, Ha). pose proof (softmax_sum lw Ha) as H1. pose proof (softmax_length lw) as HL.
  assert (Hn : (0 < INR (length lw))%R) by (apply lt_0_INR; lia).
  assert (U : lower_bound (ncs (softmax lw)) ((INR k + u) / INR (length lw)) < S k).
  { apply (lb_below _ H0 H1); [lia|]. rewrite psum_equal by (auto; lia). rewrite S_INR. apply Rmult_le_compat_r; [left; apply Rinv_0_lt_compat, Hn|lra]. }
  destruct (Nat.eq_dec k 0) as [-> |Hk0]; [lia|].
  assert (Lo : ~ lower_bound (ncs (softmax lw)) ((INR k + u) / INR (length lw)) < k).
  { rewrite (lb_below _ H0 H1) by lia. rewrite psum_equal by (auto; lia). apply Rlt_not_le. apply Rmult_lt_compat_r; [apply Rinv_0_lt_compat, Hn|lra]. }
  lia.
Qed.
Print Assumptions C91_equal.
(** At the offset 0, which torch.rand can return, it is false: of two or more particles of equal weight the
    first is doubled and the last is lost. *)
Theorem C91_equal_refuted : forall lw, alive lw -> 2 <= length lw -> (forall x y, In x lw -> In y lw -> x = y) ->
  ancestors_of lw 0 = 0 :: seq 0 (length lw - 1) /\ ~ In (length lw - 1) (ancestors_of lw 0).
Proof.
  intros lw Ha H2 He. assert (E : ancestors_of lw 0 = 0 :: seq 0 (length lw - 1)).
  { unfold ancestors_of, usteps. rewrite map_map. assert (Es : seq 0 (length lw) = 0 :: seq 1 (length lw - 1)) by (destruct (length lw) as [|n]; [lia|cbn [seq]; f_equal; f_equal; lia]).
    rewrite Es. cbn [map]. change (map (fun x => (x / rmax (cumsum (softmax lw)))%R) (cumsum (softmax lw))) with (ncs (softmax lw)).
    assert (H0 : forall x, In x (softmax lw) -> (0 <= x)%R) by (intros x; apply softmax_ge0, Ha). pose proof (softmax_sum lw Ha) as H1. pose proof (softmax_length lw) as HL.
    assert (Hn : (0 < INR (length lw))%R) by (apply lt_0_INR; lia).
    assert (P : forall k i, 1 <= i <= length lw -> (lower_bound (ncs (softmax lw)) ((INR k + 0) / INR (length lw)) < i <-> k <= i)).
    { intros k i Hi. rewrite (lb_below _ H0 H1) by lia. rewrite psum_equal by (auto; lia). split; intros H.
      - apply INR_le. apply (Rmult_le_reg_r (/ INR (length lw))); [apply Rinv_0_lt_compat, Hn|]. unfold Rdiv in H. lra.
      - apply le_INR in H. apply Rmult_le_compat_r; [left; apply Rinv_0_lt_compat, Hn|lra]. }
    f_equal.
    - destruct (P 0 1) as [_ P1]; [lia|]. specialize (P1 ltac:(lia)). lia.
    - rewrite <- seq_shift, map_map. rewrite <- (map_id (seq 0 (length lw - 1))) at 2. apply map_ext_in. intros k Hk. apply in_seq in Hk.
      destruct (P (S k) (S k)) as [_ P1]; [lia|]. specialize (P1 ltac:(lia)). destruct (Nat.eq_dec k 0) as [->|]; [lia|].
      destruct (P (S k) k) as [P2 _]; [lia|]. destruct (Nat.lt_ge_cases (lower_bound (ncs (softmax lw)) ((INR (S k) + 0) / INR (length lw))) k) as [C|C]; [specialize (P2 C); lia|lia]. }
  split; [exact E|]. rewrite E. intros [H|H]; [lia|]. apply in_seq in H. lia.
Qed.
Print Assumptions C91_equal_refuted.
(** Resampling never changes the order of the particles. *)
Theorem C91_order : forall lw u k k', alive lw -> (0 <= u)%R -> k <= k' < length lw ->
  nth k (ancestors_of lw u) 0 <= nth k' (ancestors_of lw u) 0.
Proof.
  intros lw u k k' Ha Hu Hk. unfold ancestors_of, usteps. rewrite map_map. set (f := fun x : nat => lower_bound _ ((INR x + u) / INR (length lw))).
  assert (N : forall i, i < length lw -> nth i (map f (seq 0 (length lw))) 0 = f i).
  { intros i Hi. rewrite (nth_indep _ 0 (f 0)) by (rewrite map_length, seq_length; exact Hi). rewrite (map_nth f), seq_nth by exact Hi. reflexivity. }
  rewrite !N by lia. unfold f. change (map (fun x => (x / rmax (cumsum (softmax lw)))%R) (cumsum (softmax lw))) with (ncs (softmax lw)).
  apply lb_mono. assert (0 < INR (length lw))%R by (apply lt_0_INR; lia). apply Rmult_le_compat_r; [left; apply Rinv_0_lt_compat; assumption|]. apply Rplus_le_compat_r, le_INR. lia.
Qed.
Print Assumptions C91_order.

(** ** Resampling twice *)
(** arrays of the same shape with the same entries *)
Definition same_arr (x x' : arr) : Prop := shape x' = shape x /\ forall idx, In idx (indices (shape x)) -> at_ x' idx = at_ x idx.
(** traces with the same addresses in the same order, where every variable has the same value, log-density,
    distribution and provenance *)
Definition same_trace {L : lib} (W : array_view L) (tr tr' : trace L) : Prop :=
  Forall2 (fun kr kr' => fst kr' = fst kr /\ same_arr (to_arr W (rv_value (snd kr))) (to_arr W (rv_value (snd kr'))) /\
    same_arr (to_arr W (rv_logp (snd kr))) (to_arr W (rv_logp (snd kr'))) /\ rv_den (snd kr') = rv_den (snd kr) /\ rv_prov (snd kr') = rv_prov (snd kr)) tr tr'.

Lemma norm_one d dd : norm_dim 1 d = Some dd -> dd = 0.
Proof.
  unfold norm_dim. destruct (Z.leb_spec 0 d), (Z.ltb_spec d (Z.of_nat 1)), (Z.ltb_spec d 0), (Z.leb_spec 0 (d + Z.of_nat 1)); cbn [andb]; intros E; try discriminate;
    apply (f_equal (fun o => match o with Some x => x | None => 0 end)) in E; lia.
Qed.
Section Twice.
  Context {L : lib} (W : array_view L).
  Lemma nodes_movable aidx tr tr2 : resample_nodes W aidx tr = Ok tr2 -> forall a r, In (a, r) tr -> movable W (ishape aidx) r.
  Proof.
    revert tr2. induction tr as [|[k r] tr IH]; intros tr2; cbn [resample_nodes]; [intros _ a r []|].
    destruct (resample_rv W aidx r) as [r'|] eqn:Er; cbn [rbind]; [|discriminate]. destruct (resample_nodes W aidx tr) as [t2|]; cbn [rbind]; [|discriminate].
    intros _ a r0 [E|E]; [|eapply IH; [reflexivity|exact E]]. injection E as <- <-. intros Hm. unfold resample_rv in Er. unfold moves in Hm.
    apply andb_true_iff in Hm. destruct Hm as [Hm1 Hm2]. rewrite Hm1 in Er. apply negb_true_iff in Hm2. rewrite Hm2 in Er. cbn [negb orb] in Er.
    destruct (pick W (rv_value r) aidx) as [v|] eqn:Ev; cbn [rbind] in Er; [|discriminate]. destruct (pick W (rv_logp r) aidx) as [l|] eqn:El; cbn [rbind] in Er; [|discriminate].
    apply pick_ok in Ev. apply pick_ok in El. destruct Ev as (V1 & V2 & _). destruct El as (L1 & L2 & _). repeat split; try assumption. intros E. rewrite E in Er. discriminate.
  Qed.
  Lemma systematic_movable nrm tr lw (sd bd : pyval (T L)) ds tr2 lw2 :
    path (systematic_call W nrm tr lw [("sample_dims", sd); ("batch_dim", bd)]) ds (Ok (tr2, lw2)) -> bd <> VNone ->
    forall a r, In (a, r) tr -> movable W [nth 0 (shape (to_arr W lw)) 0; last (shape (to_arr W lw)) 0] r.
  Proof.
    unfold systematic_call. cbn [dget String.eqb Ascii.eqb Bool.eqb].
    destruct (is_zero sd); cbn [negb]; [|intros H; apply path_leaf_inv in H; destruct H; discriminate].
    destruct (is_tensor L lw); cbn [negb]; [|intros H; apply path_leaf_inv in H; destruct H; discriminate].
    assert (Exp : forall d : Z,
      path (tbind (ancestor_indices W (to_arr W lw) d) (fun r =>
         Leaf (rbind r (fun aidx => rbind (resample_nodes W aidx tr) (fun tr2 =>
            let lw1 := mean_weight (to_arr W lw) in Ok (tr2, of_arr W (if nrm then log_softmax lw1 else lw1)))))))
        ds (Ok (tr2, lw2)) -> forall a r, In (a, r) tr -> movable W [nth 0 (shape (to_arr W lw)) 0; last (shape (to_arr W lw)) 0] r).
    { intros d H. apply path_tbind in H. destruct H as (ds1 & ra & ds2 & Ha & H & ->). apply path_leaf_inv in H. destruct H as [-> H].
      destruct ra as [aidx|]; cbn [rbind] in H; [|discriminate]. destruct (resample_nodes W aidx tr) as [t2|] eqn:En; cbn [rbind] in H; [|discriminate]. clear H.
      pose proof (nodes_movable _ _ _ En) as Hm. unfold ancestor_indices in Ha.
      destruct (shape (to_arr W lw)) as [|n sh] eqn:Esh; [apply path_leaf_inv in Ha; destruct Ha; discriminate|].
      destruct (norm_dim (length (n :: sh)) d) as [dd|] eqn:Ed; [|apply path_leaf_inv in Ha; destruct Ha; discriminate].
      apply path_draw_inv in Ha. destruct Ha as (v & ds' & -> & Ha).
      destruct (Nat.eqb_spec n 0) as [|Hn]; [apply path_leaf_inv in Ha; destruct Ha; discriminate|].
      destruct sh as [|m [|? ?]].
      - apply path_leaf_inv in Ha. destruct Ha as [-> Ha]. injection Ha as <-. cbn [ishape nth last] in *.
        assert (dd = 0) by exact (norm_one d dd Ed).
        subst dd. exact Hm.
      - destruct (Nat.eqb_spec m (nth dd [n; m] 0)) as [Em|]; [|apply path_leaf_inv in Ha; destruct Ha; discriminate].
        apply path_leaf_inv in Ha. destruct Ha as [-> Ha]. injection Ha as Ha. assert (E : ishape aidx = [n; m]) by (rewrite <- Ha; cbn [ishape]; f_equal; f_equal; symmetry; exact Em). rewrite E in Hm. exact Hm.
      - apply path_leaf_inv in Ha; destruct Ha; discriminate. }
    destruct bd; intros H Hb; try congruence; try (apply path_leaf_inv in H; destruct H; discriminate); [exact (Exp _ H)|exact (Exp _ H)].
  Qed.
  (** the weights after resampling do not depend on the particle *)
  Lemma weights_equal nrm tr lw (sd bd : pyval (T L)) ds tr2 lw2 :
    path (systematic_call W nrm tr lw [("sample_dims", sd); ("batch_dim", bd)]) ds (Ok (tr2, lw2)) ->
    forall k k' rest, k < nth 0 (shape (to_arr W lw2)) 0 -> k' < nth 0 (shape (to_arr W lw2)) 0 -> at_ (to_arr W lw2) (k :: rest) = at_ (to_arr W lw2) (k' :: rest).
  Proof.
    intros H k k' rest. apply systematic_path in H. destruct H as (_ & _ & _ & v & lw1 & _ & _ & _ & _ & _ & ->). destruct nrm; cbn [shape log_softmax mean_weight]; [|reflexivity].
    intros Hk Hk'. unfold log_softmax. cbn [at_ nth tl]. f_equal. unfold softmax. set (l := fiber0 _ rest).
    assert (El : forall i, i < nth 0 (shape lw1) 0 -> nth i l (Fin 0) = logsumexp (map (eshift (- ln (INR (nth 0 (shape lw1) 0)))) (fiber0 lw1 rest))).
    { intros i Hi. unfold l, fiber0 at 1. cbn [shape mean_weight].
      set (g := fun k0 : nat => at_ (mean_weight lw1) (k0 :: rest)). rewrite (nth_indep _ (Fin 0) (g 0)) by (rewrite map_length, seq_length; exact Hi).
      rewrite (map_nth g), seq_nth by exact Hi. reflexivity. }
    set (h := fun x => (eexp x / rsum (map eexp l))%R). assert (Ll : length l = nth 0 (shape lw1) 0) by (unfold l, fiber0; rewrite map_length, seq_length; reflexivity).
    rewrite (nth_indep _ 0%R (h (Fin 0))), (nth_indep (map h l) 0%R (h (Fin 0))) by (rewrite map_length, Ll; assumption). rewrite !(map_nth h), !El by assumption. reflexivity.
  Qed.
End Twice.

(** Resampling the result of a Resample, with offsets in (0, 1): the particles and their
    weights are those of the first Resample.  (The weights are compared for resamplers that do not normalise
    them; [last (shape lw) 0] is the number of batch entries.) *)
Theorem C91_twice : forall (L : lib) (W : array_view L) oid1 oid2 q ix1 ix2 l1 l2 nrm1 nrm2 dbg1 dbg2 c kws s ds r s',
  wf_dict kws -> wf_st s ->
  path (run (L := L) (IResample oid2 (IResample oid1 q ix1 l1 (systematic W nrm1) dbg1) ix2 l2 (systematic W nrm2) dbg2) c kws s) ds (Ok r, s') ->
  exists ds1 v r1 s1, ds = ds1 ++ [(DrawRand, v)] /\
    path (run (IResample oid1 q ix1 l1 (systematic W nrm1) dbg1) c (sub_kwargs ix2 kws) s) ds1 (Ok r1, s1) /\
    let lw := to_arr W (out_lw r1) in
    ((forall j, j < last (shape lw) 0 -> (0 < fin (at_ (to_arr W v) [j]) < 1)%R) -> (forall idx, In idx (indices (shape lw)) -> at_ lw idx <> NInf) ->
     same_trace W (out_trace r1) (out_trace r) /\ (nrm2 = false -> same_arr lw (to_arr W (out_lw r)))).
Proof.
  intros L W oid1 oid2 q ix1 ix2 l1 l2 nrm1 nrm2 dbg1 dbg2 c kws s ds r s' Hkw Hst H. pose proof H as H0. apply run_resample_path in H0.
  destruct H0 as (ds1 & ds2 & r1 & s1 & items & lw2 & c1 & c2 & st2 & -> & Hq & Hr & _ & _ & _ & _ & Et & Elw & _).
  rewrite passable_systematic in Hr. cbn [rs_call systematic] in Hr. pose proof (systematic_path W _ _ _ _ _ _ _ _ Hr) as (_ & _ & HN & v & lw1 & -> & _ & Hn & Hrank & Ht & _).
  assert (Hwf : wf_dict items).
  { unfold wf_dict. rewrite (resampled_keys _ _ _ _ Ht). apply (run_returns_wf (IResample oid1 q ix1 l1 (systematic W nrm1) dbg1) c (sub_kwargs ix2 kws) s r1 s1); [apply wf_sub_kwargs, Hkw|exact Hst|].
    apply path_outcome in Hq. exact Hq. }
  rewrite as_trace_id in Et by exact Hwf. exists ds1, v, r1, s1. split; [reflexivity|]. split; [exact Hq|]. cbn zeta. intros Hu Hfin.
  apply run_resample_path in Hq. destruct Hq as (d1 & d2 & qo & sq & it1 & lwq & cq & cq2 & stq & _ & _ & Hin & _ & _ & _ & _ & _ & Elw1 & _).
  rewrite passable_systematic in Hin. cbn [rs_call systematic] in Hin.
  change (kwarg "batch_dim" VNone (sub_kwargs ix2 kws)) with (kwarg "batch_dim" VNone kws) in Hin.
  pose proof (systematic_path W _ _ _ _ _ _ _ _ Hin) as (_ & _ & HN1 & _).
  pose proof Hin as Ow. apply path_outcome in Ow. pose proof (proj1 (systematic_weights W _ _ _ _ _ _ _ Ow)) as Sh1.
  assert (Hbd : kwarg "batch_dim" VNone kws <> VNone).
  { intros E. specialize (HN E). specialize (HN1 E). rewrite E in Sh1. cbn [is_none] in Sh1. rewrite Elw1, Sh1, app_length in HN. cbn in HN. lia. }
  pose proof (weights_equal W _ _ _ _ _ _ _ _ Hin) as Heq. rewrite <- Elw1 in Heq. set (lw := to_arr W (out_lw r1)) in *.
  assert (Hnb : (if is_none (kwarg "batch_dim" VNone kws) then 0 else 1) = 1) by (destruct (kwarg "batch_dim" VNone kws); [congruence|reflexivity..]).
  cbv zeta in Ht. rewrite Hnb in Ht. pose proof (systematic_movable W _ _ _ _ _ _ _ _ Hr Hbd) as Hmov. fold lw in Hmov.
  (* the columns *)
  assert (Hin_lw : forall k j, k < nth 0 (shape lw) 0 -> j < last (shape lw) 0 -> In (k :: firstn (length (shape lw) - 1) [j]) (indices (shape lw))).
  { intros k j Hk Hj. destruct (shape lw) as [|n [|m [|? ?]]]; cbn [length nth last] in *; try (destruct Hrank; discriminate); cbn [Nat.sub firstn]; apply indices_spec; cbn [length]; (split; [reflexivity|]).
    - intros [|d] Hd; cbn [nth]; lia.
    - intros [|[|d]] Hd; cbn [nth]; lia. }
  assert (Hcol : forall j, j < last (shape lw) 0 -> length (column lw [j]) = nth 0 (shape lw) 0 /\ alive (column lw [j]) /\ forall x y, In x (column lw [j]) -> In y (column lw [j]) -> x = y).
  { intros j Hj. unfold column. split; [rewrite map_length, seq_length; reflexivity|]. split.
    - pose proof (Hfin _ (Hin_lw 0 j Hn Hj)) as F. destruct (at_ lw (0 :: firstn (length (shape lw) - 1) [j])) as [|x] eqn:E; [congruence|].
      exists x. rewrite <- E. apply in_map_iff. exists 0. split; [reflexivity|]. apply in_seq. lia.
    - intros x y Hx Hy. apply in_map_iff in Hx. apply in_map_iff in Hy. destruct Hx as (k & <- & Hk). destruct Hy as (k' & <- & Hk'). apply in_seq in Hk. apply in_seq in Hk'. apply Heq; lia. }
  assert (Hanc : forall k j rest, k < nth 0 (shape lw) 0 -> j < last (shape lw) 0 -> ancestor lw 1 (fun b => fin (at_ (to_arr W v) [nth 0 b 0])) k (j :: rest) = k).
  { intros k j rest Hk Hj. destruct (Hcol j Hj) as (C1 & C2 & C3). unfold ancestor. cbn [firstn nth]. rewrite (C91_equal _ _ C2 (Hu j Hj) C3), C1. apply seq_nth. exact Hk. }
  split.
  - rewrite Et. unfold same_trace. clear Et Hwf Hr. unfold resampled_trace in Ht. revert Hmov. generalize (out_trace r1) Ht. clear Ht. intros tr Ht Hmov.
    induction Ht as [|[a x] [a' x'] tr tr' [E Hx] Ht IH]; [constructor|]. constructor; [|apply IH; intros a0 x0 H0; apply (Hmov a0); right; exact H0].
    cbn [fst snd] in *. split; [exact E|]. specialize (Hmov a x (or_introl eq_refl)). unfold movable in Hmov. unfold resampled_rv in Hx. destruct (moves x).
    + destruct (Hmov eq_refl) as (_ & V2 & _ & P2 & _). destruct Hx as ((G1 & G2) & (G3 & G4) & G5 & G6).
      assert (G : forall y, firstn 2 (shape y) = [nth 0 (shape lw) 0; last (shape lw) 0] -> forall idx, In idx (indices (shape y)) -> exists k j rest, idx = k :: j :: rest /\ k < nth 0 (shape lw) 0 /\ j < last (shape lw) 0).
      { intros y Hy idx Hi. apply indices_spec in Hi. destruct Hi as [I1 I2]. destruct (shape y) as [|n [|m sh]]; try discriminate. cbn [firstn] in Hy. injection Hy as -> ->.
        destruct idx as [|k [|j rest]]; try discriminate. exists k, j, rest. split; [reflexivity|]. split; [apply (I2 0); cbn; lia|apply (I2 1); cbn; lia]. }
      split; [split; [exact G1|]|split; [split; [exact G3|]|split; [exact G5|exact G6]]].
      * intros idx Hi. destruct (G _ V2 idx Hi) as (k & j & rest & -> & Hk & Hj). rewrite G2 by exact Hi. rewrite Hanc by assumption. reflexivity.
      * intros idx Hi. destruct (G _ P2 idx Hi) as (k & j & rest & -> & Hk & Hj). rewrite G4 by exact Hi. rewrite Hanc by assumption. reflexivity.
    + subst x'. repeat split.
  - intros ->. rewrite Elw. pose proof Hr as Ow2. apply path_outcome in Ow2. pose proof (systematic_weights W _ _ _ _ _ _ _ Ow2) as [S1 S2]. fold lw in S1, S2.
    replace (shape lw ++ (if is_none (kwarg "batch_dim" VNone kws) then [1] else [])) with (shape lw) in S1 by (destruct (kwarg "batch_dim" VNone kws); [congruence|symmetry; apply app_nil_r..]).
    split; [exact S1|]. intros idx Hi.
    assert (Hr' : exists k rest, idx = k :: rest /\ k < nth 0 (shape lw) 0).
    { pose proof Hi as Hi'. apply indices_spec in Hi'. destruct Hi' as [I1 I2]. destruct (shape lw) as [|n sh]; [cbn in Hn; lia|]. destruct idx as [|k rest]; [discriminate|]. exists k, rest. split; [reflexivity|]. apply (I2 0). cbn. lia. }
    destruct Hr' as (k & rest & -> & Hk). destruct (S2 k rest) as [S3 _]; [rewrite S1; exact Hi|]. destruct (S3 eq_refl) as [-> _].
    pose proof (Hfin _ Hi) as F. destruct (at_ lw (k :: rest)) as [|x] eqn:E; [congruence|].
    assert (Hc : column lw rest = repeat (Fin x) (nth 0 (shape lw) 0)).
    { unfold column. assert (Hl : firstn (length (shape lw) - 1) rest = rest) by (apply firstn_all2; apply indices_spec in Hi; destruct Hi as [I1 _]; cbn in I1; lia). rewrite Hl.
      assert (Hm : forall n k0, k0 + n <= nth 0 (shape lw) 0 -> map (fun i => at_ lw (i :: rest)) (seq k0 n) = repeat (Fin x) n).
      { induction n as [|n IHn]; intros k0 Hle; [reflexivity|]. cbn. f_equal; [rewrite <- E; apply Heq; lia|apply IHn; lia]. }
      apply Hm. lia. }
    rewrite Hc. unfold log_Z_hat, Z_hat. rewrite repeat_length. set (n := nth 0 (shape lw) 0) in *.
    assert (Hs : rsum (map eexp (repeat (Fin x) n)) = (INR n * exp x)%R).
    { clear. induction n as [|n IH]; [cbn; lra|]. rewrite S_INR. cbn [repeat map eexp]. rewrite rsum_cons, IH. lra. }
    rewrite Hs. replace (INR n * exp x / INR n)%R with (eexp (Fin x)); [apply elog_eexp|]. cbn [eexp]. field. apply not_0_INR. lia.
Qed.
Print Assumptions C91_twice.

(** Without a batch dimension, Resample cannot be applied to the result of a Resample at all: the first has appended a
    dimension to the weights (C33), and the second refuses them. *)
Theorem C91_twice_refuted : forall (L : lib) (W : array_view L) oid1 oid2 q ix1 ix2 l1 l2 nrm1 nrm2 dbg1 dbg2 c kws s ds r s',
  kwarg "batch_dim" VNone kws = VNone ->
  ~ path (run (L := L) (IResample oid2 (IResample oid1 q ix1 l1 (systematic W nrm1) dbg1) ix2 l2 (systematic W nrm2) dbg2) c kws s) ds (Ok r, s').
Proof.
  intros L W oid1 oid2 q ix1 ix2 l1 l2 nrm1 nrm2 dbg1 dbg2 c kws s ds r s' Hb H. apply run_resample_path in H.
  destruct H as (ds1 & ds2 & r1 & s1 & items & lw2 & c1 & c2 & st2 & _ & Hq & Hr & _). rewrite passable_systematic, Hb in Hr. cbn [rs_call systematic] in Hr.
  apply systematic_path in Hr. destruct Hr as (_ & _ & HN & _). specialize (HN eq_refl).
  apply run_resample_path in Hq. destruct Hq as (d1 & d2 & qo & sq & it1 & lwq & cq & cq2 & stq & _ & _ & Hin & _ & _ & _ & _ & _ & Elw1 & _).
  rewrite passable_systematic in Hin. cbn [rs_call systematic] in Hin. change (kwarg "batch_dim" VNone (sub_kwargs ix2 kws)) with (kwarg "batch_dim" VNone kws) in Hin. rewrite Hb in Hin.
  pose proof (systematic_path W _ _ _ _ _ _ _ _ Hin) as (_ & _ & HN1 & _). specialize (HN1 eq_refl).
  pose proof Hin as Ow. apply path_outcome in Ow. pose proof (proj1 (systematic_weights W _ _ _ _ _ _ _ Ow)) as Sh1. rewrite Elw1, Sh1, app_length in HN. cbn in HN. lia.
Qed.
Print Assumptions C91_twice_refuted.

(** ** A case: two particles with log-weights 0 and 1, in one batch entry, resampled twice *)
Definition wm : arr := mat 2 1 (fun i _ => INR i).
Definition xm : arr := mat 2 1 (fun i _ => INR (10 + i)).
Definition um : arr := vec [(1/2)%R].
Definition kwsm : dict (pyval arr) := [("sample_dims", VInt 0); ("batch_dim", VInt 1)].
Definition once (q : inf TenL) (oid : nat) : inf TenL := IResample oid q VNone None (systematic TenV false) false.
Definition good (o : out TenL) : Prop :=
  wf_dict (out_trace o) /\ dkeys (out_trace o) = ["x"; "y"] /\ shape (out_lw o) = [2; 1] /\
  (forall idx, In idx (indices [2; 1]) -> at_ (out_lw o) idx <> NInf) /\ (forall a r, In (a, r) (out_trace o) -> movable TenV [2; 1] r) /\
  exists t, out_output o = VDict [("x", VTensor t); ("other", VNone)].
Lemma again_step q oid kws s ds qo s1 :
  kwarg "sample_dims" VNone kws = VInt 0 -> kwarg "batch_dim" VNone kws = VInt 1 -> clash ["self"; "c"] kws = false ->
  path (run q VNone (sub_kwargs (L := TenL) VNone kws) s) ds (Ok qo, s1) -> good qo -> (forall st t t', hook s1 st t t' = Ok st) ->
  exists r s2, path (run (once q oid) VNone kws s) (ds ++ [(DrawRand, um)]) (Ok r, s2) /\ good r /\ (forall st t t', hook s2 st t t' = Ok st).
Proof.
  intros Hsd Hbd Hc Hq (G1 & G2 & G3 & G4 & G5 & t & G6) Hh.
  destruct (systematic_total_matrix TenV false (out_trace qo) (out_lw qo) 2 1 (VInt 0) 1 um) as (tr2 & lw2 & Hr); try reflexivity; try exact G3; try exact G5; [auto|lia| | |].
  { intros [|j] Hj; [|lia]. pose proof (G4 [0; 0]) as F. destruct (at_ (out_lw qo) [0; 0]) as [|x] eqn:E; [exfalso; apply F; [cbn; auto|reflexivity]|].
    exists x. unfold column. cbn [to_arr TenV]. rewrite G3. cbn. left. exact E. }
  { intros [|j] Hj; [cbn; lra|lia]. }
  pose proof (systematic_path TenV _ _ _ _ _ _ _ _ Hr) as (_ & _ & _ & v & lw1 & _ & _ & _ & _ & Ht & _).
  pose proof Hr as Ow. apply path_outcome in Ow. pose proof (systematic_weights TenV _ _ _ _ _ _ _ Ow) as [S1 S2]. cbn [is_none to_arr TenV app] in S1, S2. rewrite app_nil_r, G3 in S1.
  pose proof (resampled_keys _ _ _ _ Ht) as Hk. rewrite G2 in Hk.
  assert (Hwf : wf_dict tr2) by (unfold wf_dict; rewrite Hk; repeat constructor; cbn; intuition discriminate).
  assert (Ho : dget "other" tr2 = None).
  { destruct (dget "other" tr2) as [r'|] eqn:Eo; [|reflexivity]. exfalso. assert (Hi : In "other" (dkeys tr2)) by (apply dget_In in Eo; apply (in_map fst) in Eo; exact Eo).
    rewrite Hk in Hi. cbn in Hi. intuition discriminate. }
  assert (Hc2 : exists t2, resample_output (L := TenL) [("x", VTensor t); ("other", VNone)] (as_trace tr2) = Ok [("x", VTensor t2); ("other", VNone)]).
  { rewrite as_trace_id by exact Hwf. cbn [resample_output]. rewrite Ho. destruct (dget "x" tr2) as [r|]; cbn [rbind]; eexists; reflexivity. }
  destruct Hc2 as (t2 & Hc2).
  assert (Hr' : path (rs_call (systematic TenV false) (out_trace qo) (out_lw qo)
      (filter (fun kv => check_passable_kwarg (fst kv) (rs_sig (systematic TenV false)))
         [("sample_dims", kwarg "sample_dims" VNone kws); ("batch_dim", kwarg "batch_dim" VNone kws); ("reparameterized", kwarg "reparameterized" (VBool true) kws)]))
      [(DrawRand, um)] (Ok (tr2, lw2))) by (rewrite passable_systematic, Hsd, Hbd; exact Hr).
  destruct (run_resample_intro oid q VNone None (systematic TenV false) false VNone kws s ds _ qo s1 tr2 lw2 _ _ _ Hc Hq Hr' G6 Hc2 (Hh _ _ _)) as (r & Hp & Et & El).
  exists r, (set_store (store s1) s1). split; [exact Hp|]. split; [|exact Hh].
  pose proof Hp as Hp2. apply run_resample_path in Hp2. destruct Hp2 as (d1 & d2 & qo' & s1' & it' & lw' & c1' & c2' & st' & Ed & Hq' & Hr2 & Eo' & Ec' & _ & _ & _ & _ & Eor).
  unfold good. rewrite Et, El, as_trace_id by exact Hwf. split; [exact Hwf|]. split; [exact Hk|]. split; [exact S1|]. split.
  - intros idx Hi. assert (F : exists k, idx = [k; 0]) by (cbn in Hi; destruct Hi as [<-|[<-|[]]]; eauto). destruct F as (k & ->).
    destruct (S2 k [0]) as [S3 _]; [rewrite S1; exact Hi|]. destruct (S3 eq_refl) as [-> _]. unfold log_Z_hat, Z_hat, column. rewrite G3. cbn [nth length Nat.sub firstn seq map].
    pose proof (G4 [0; 0]) as F0. pose proof (G4 [1; 0]) as F1.
    destruct (at_ (out_lw qo) [0; 0]) as [|x]; [exfalso; apply F0; [cbn; auto|reflexivity]|]. destruct (at_ (out_lw qo) [1; 0]) as [|y]; [exfalso; apply F1; [cbn; auto|reflexivity]|].
    cbn [eexp length INR]. intros E. apply (f_equal eexp) in E. rewrite eexp_elog in E by (cbn; pose proof (exp_pos x); pose proof (exp_pos y); lra). cbn in E. pose proof (exp_pos x). pose proof (exp_pos y). lra.
  - split.
    + clear -Ht G5. intros a r Hi. revert G5 Hi. unfold resampled_trace in Ht. induction Ht as [|[a1 x1] [a2 x2] tr tr' [E Hx] Ht IH]; intros G5 Hi; [destruct Hi|].
      destruct Hi as [Hi|Hi]; [|apply IH; [intros b y Hy; apply (G5 b); right; exact Hy|exact Hi]]. injection Hi as -> ->. cbn [fst snd] in *. specialize (G5 a1 x1 (or_introl eq_refl)).
      unfold resampled_rv in Hx. destruct (moves x1) eqn:Em; [|subst r; exact G5]. destruct (G5 Em) as (_ & V & _ & P & O). destruct Hx as ((S1 & _) & (S2 & _) & D & _).
      intros _. rewrite S1, S2, D. repeat split; assumption.
    + rewrite passable_systematic in Hr2. cbn [rs_call systematic] in Hr2. pose proof Hr2 as Hr3. apply systematic_path in Hr3. destruct Hr3 as (_ & _ & _ & v' & _ & Ed2 & _).
      rewrite Ed2 in Ed, Hr2. apply app_inj_tail in Ed. destruct Ed as [<- E]. injection E as <-. pose proof (path_fun _ _ _ _ Hq Hq') as E. injection E as <- <-.
      rewrite Hsd, Hbd in Hr2. pose proof (path_fun _ _ _ _ Hr Hr2) as E. injection E as <- <-. rewrite G6 in Eo'. injection Eo' as <-. pose proof (eq_trans (eq_sym Hc2) Ec') as E2. injection E2 as <-. exists t2. exact Eor.
Qed.
Example C91_case : exists ds r s', path (run (once (once (P_w wm) 5) 6) VNone kwsm (st0 TenL)) (ds ++ [(DrawRand, um)]) (Ok r, s') /\ wf_dict kwsm /\ wf_st (st0 TenL).
Proof.
  destruct (walkd (run (P_w wm) VNone (sub_kwargs (L := TenL) VNone (sub_kwargs (L := TenL) VNone kwsm)) (st0 TenL)) [xm]) as [[ds1 [[qo|e] s1]]|] eqn:E; try discriminate.
  pose proof (walkd_path _ _ _ _ E) as Hq.
  assert (G : good qo /\ forall st t t', hook s1 st t t' = Ok st).
  { injection E as <- <- <-. split; [|reflexivity]. split; [repeat constructor; cbn; intuition discriminate|]. split; [reflexivity|]. split; [reflexivity|]. split; [|split; [|eexists; reflexivity]].
    - intros idx Hi. cbn in Hi. destruct Hi as [<-|[<-|[]]]; discriminate.
    - intros a r [H|[H|[]]]; injection H as <- <-; intros Hm; [|discriminate]. repeat split; discriminate. }
  destruct G as [G Hh]. destruct (again_step (P_w wm) 5 (sub_kwargs (L := TenL) VNone kwsm) (st0 TenL) _ _ _ eq_refl eq_refl eq_refl Hq G Hh) as (r1 & s2 & H1 & G1 & Hh1).
  destruct (again_step (once (P_w wm) 5) 6 kwsm (st0 TenL) _ _ _ eq_refl eq_refl eq_refl H1 G1 Hh1) as (r2 & s3 & H2 & _).
  exists (ds1 ++ [(DrawRand, um)]), r2, s3. split; [exact H2|]. split; [repeat constructor; cbn; intuition discriminate|]. intros i t Hi. discriminate.
Qed.
(** three equal weights, and the offsets 1/2 and 0 *)
Example C91_weights : let lw := [Fin 2; Fin 2; Fin 2]%R in alive lw /\ 2 <= length lw /\ (forall x y, In x lw -> In y lw -> x = y) /\
  ancestors_of lw (1/2) = [0; 1; 2] /\ ancestors_of lw 0 = [0; 0; 1].
Proof.
  intros lw. assert (A : alive lw) by (exists 2%R; left; reflexivity). assert (E : forall x y, In x lw -> In y lw -> x = y) by (cbn; intuition congruence).
  split; [exact A|]. split; [cbn; lia|]. split; [exact E|]. split; [apply C91_equal; [exact A|lra|exact E]|]. apply C91_equal_refuted; [exact A|cbn; lia|exact E].
Qed.
