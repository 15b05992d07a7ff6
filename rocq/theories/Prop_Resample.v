(** Properties C26-C33: Resample and the Systematic resampler. *)
From Coq Require Import Lra.
From Coquelicot Require Import Coquelicot.
From Verif Require Import Thm_Systematic InstancesArr.
Close Scope R_scope.
Open Scope nat_scope.

(** Two particles with log-weights 0 and 1, resampled without a batch dimension. *)
Definition RS (w : arr) (nrm : bool) : inf TenL := IResample 5 (P_w w) VNone None (systematic TenV nrm) false.
Definition w2 : arr := vec [0%R; 1%R].
Definition x2 : arr := vec [10%R; 20%R].
Definition u2 : arr := vec [(1/2)%R].
Definition kws2 : dict (pyval arr) := [("sample_dims", VInt 0)].

Lemma RS_returns nrm : exists ds r s',
  path (run (RS w2 nrm) VNone kws2 (st0 TenL)) ds (Ok r, s') /\ wf_dict kws2 /\ wf_st (st0 TenL).
Proof.
  destruct (walkd (run (P_w w2) VNone (sub_kwargs (L := TenL) VNone kws2) (st0 TenL)) [x2]) as [[ds1 [[qo|e] s1]]|] eqn:E;
    try discriminate.
  pose proof (walkd_path _ _ _ _ E) as Hq. injection E as <- <- <-.
  destruct (systematic_total_vector TenV nrm
    (out_trace (mkOut (L := TenL) [("x", mkRV (L := TenL) (Proper (L := TenL) tt) x2 x2 SAMPLED true true);
                 ("y", mkRV (L := TenL) (Proper (L := TenL) tt) w2 w2 OBSERVED true true)] w2 VNone TyProgram None None None None []))
    (tadd TenL (tzero TenL) w2) 2 (VInt 0) u2) as (tr2 & lw2 & Hr).
  - reflexivity.
  - reflexivity.
  - reflexivity.
  - exists (0 + 0)%R. left. reflexivity.
  - intros a r [H|[H|[]]]; injection H as <- <-; intros Hm; [|discriminate].
    split; [reflexivity|]. split; [reflexivity|]. split; [reflexivity|]. split; [reflexivity|discriminate].
  - cbn. lra.
  - pose proof (systematic_path TenV _ _ _ _ _ _ _ _ Hr) as (_ & _ & _ & v & lw1 & _ & _ & _ & _ & Ht & _).
    assert (Hc : exists c2, resample_output (L := TenL) [("x", VTensor x2); ("other", VNone)] (as_trace tr2) = Ok c2).
    { pose proof (resampled_keys _ _ _ _ Ht) as Hk. cbn in Hk.
      rewrite as_trace_id by (unfold wf_dict; rewrite Hk; repeat constructor; cbn; intuition discriminate).
      cbn [resample_output]. destruct (dget "x" tr2) as [r|]; cbn [rbind];
      (destruct (dget "other" tr2) as [r'|] eqn:Eo;
        [exfalso; assert (Hi : In "other" (dkeys tr2)) by (apply dget_In in Eo; apply (in_map fst) in Eo; exact Eo);
           rewrite Hk in Hi; cbn in Hi; intuition discriminate|]); cbn [rbind]; eexists; reflexivity. }
    destruct Hc as (c2 & Hc).
    destruct (run_resample_intro 5 (P_w w2) VNone None (systematic TenV nrm) false VNone kws2 _ _ _ _ _ _ _ _ c2 [] eq_refl Hq Hr eq_refl Hc eq_refl)
      as (r & Hp & _).
    eexists _, r, _. split; [exact Hp|]. split; [repeat constructor; cbn; intuition discriminate|].
    intros i t Hi. cbn in Hi. discriminate.
Qed.

(** ** C26 Resample acts on whole particles *)

(** A Resample with the Systematic resampler that returns: it ran [q], then drew one tensor [v]
    of offsets.  The new trace has the addresses of q's trace in the same order; at each
    address, the value and the log-density of a resamplable variable that is not OBSERVED are
    those of the particles selected by one common ancestor function, any other variable is
    untouched; output entries at addresses follow the trace. *)
Theorem C26_whole_particles : forall (L : lib) (W : array_view L) oid q self_ix l0 nrm dbg c kws s ds r s',
  wf_dict kws -> wf_st s ->
  path (run (L := L) (IResample oid q self_ix l0 (systematic W nrm) dbg) c kws s) ds (Ok r, s') ->
  exists ds1 v qo s1 c1 c2,
    ds = ds1 ++ [(DrawRand, v)] /\ path (run q c (sub_kwargs self_ix kws) s) ds1 (Ok qo, s1) /\
    resampled_trace W (ancestor (to_arr W (out_lw qo)) (batch_rank kws) (fun b => fin (at_ (to_arr W v) [nth 0 b 0])))
      (out_trace qo) (out_trace r) /\
    out_output qo = VDict c1 /\ out_output r = VDict c2 /\ output_follows (out_trace r) c1 c2.
Proof. exact @resample_systematic. Qed.
Print Assumptions C26_whole_particles.
(** the addresses and their order *)
Theorem C26_addresses : forall (L : lib) (W : array_view L) anc (tr tr' : trace L),
  resampled_trace W anc tr tr' -> dkeys tr' = dkeys tr.
Proof. exact @resampled_keys. Qed.
Print Assumptions C26_addresses.
Example C26_two_particles : exists ds r s',
  path (run (RS w2 false) VNone kws2 (st0 TenL)) ds (Ok r, s') /\ wf_dict kws2 /\ wf_st (st0 TenL).
Proof. exact (RS_returns false). Qed.

(** ** C27 Resample validates its input *)

(** with any resampler: if the call returns, q's output was a dict, and its entries at
    resampled addresses were tensors *)
Theorem C27_output_checked : forall (L : lib) oid (q : inf L) self_ix l0 rs dbg c kws s ds r s',
  path (run (IResample oid q self_ix l0 rs dbg) c kws s) ds (Ok r, s') ->
  exists ds1 qo s1 c1, path (run q c (sub_kwargs self_ix kws) s) ds1 (Ok qo, s1) /\
    out_output qo = VDict c1 /\
    forall k v, In (k, v) c1 -> In k (dkeys (out_trace r)) -> exists t, v = VTensor t.
Proof.
  intros L oid q self_ix l0 rs dbg c kws s ds r s' H. apply run_resample_path in H.
  destruct H as (ds1 & ds2 & qo & s1 & items & lw2 & c1 & c2 & st2 & _ & Hq & _ & Eo & Ec & _ & _ & -> & _).
  exists ds1, qo, s1, c1. split; [exact Hq|]. split; [exact Eo|]. apply resample_output_ok in Ec. apply Ec.
Qed.
Print Assumptions C27_output_checked.
(** with any resampler that returns, an output that is not a dict raises AssertionError and
    the global store is not touched *)
Theorem C27_not_a_dict : forall (L : lib) oid (q : inf L) self_ix l0 rs dbg c kws s ds1 ds2 qo s1 items lw2,
  clash ["self"; "c"] kws = false ->
  path (run q c (sub_kwargs self_ix kws) s) ds1 (Ok qo, s1) ->
  path (rs_call rs (out_trace qo) (out_lw qo)
    (filter (fun kv => check_passable_kwarg (fst kv) (rs_sig rs))
       [("sample_dims", kwarg "sample_dims" VNone kws); ("batch_dim", kwarg "batch_dim" VNone kws);
        ("reparameterized", kwarg "reparameterized" (VBool true) kws)])) ds2 (Ok (items, lw2)) ->
  (forall c1, out_output qo <> VDict c1) ->
  path (run (IResample oid q self_ix l0 rs dbg) c kws s) (ds1 ++ ds2) (Err AssertionError, s1).
Proof. exact @run_resample_not_dict. Qed.
Print Assumptions C27_not_a_dict.
(** the default resampler: sample_dims must be 0 and, without batch_dim, the weight a vector *)
Theorem C27_default_resampler : forall (L : lib) (W : array_view L) oid q self_ix l0 nrm dbg c kws s ds r s',
  path (run (L := L) (IResample oid q self_ix l0 (systematic W nrm) dbg) c kws s) ds (Ok r, s') ->
  (kwarg "sample_dims" VNone kws = VInt 0 \/ kwarg "sample_dims" VNone kws = VBool false) /\
  exists ds1 qo s1, path (run q c (sub_kwargs self_ix kws) s) ds1 (Ok qo, s1) /\
    is_tensor L (out_lw qo) = true /\
    (kwarg "batch_dim" VNone kws = VNone -> length (shape (to_arr W (out_lw qo))) = 1).
Proof.
  intros L W oid q self_ix l0 nrm dbg c kws s ds r s' H. apply run_resample_path in H.
  destruct H as (ds1 & ds2 & qo & s1 & items & lw2 & c1 & c2 & st2 & _ & Hq & Hr & _).
  rewrite passable_systematic in Hr. cbn [rs_call systematic] in Hr. apply systematic_path in Hr.
  destruct Hr as (Hz & Ht & Hb & _). split.
  - unfold is_zero in Hz. destruct (kwarg "sample_dims" VNone kws); try discriminate.
    + right. destruct b; [discriminate|reflexivity].
    + apply Z.eqb_eq in Hz. left. rewrite Hz. reflexivity.
  - exists ds1, qo, s1. split; [exact Hq|]. split; [exact Ht|exact Hb].
Qed.
Print Assumptions C27_default_resampler.
(** ... and otherwise it raises AssertionError before drawing anything *)
Theorem C27_default_raises : forall (L : lib) (W : array_view L) nrm tr lw (sd bd : pyval (T L)) ds x,
  is_zero sd = false \/ is_tensor L lw = true /\ bd = VNone /\ length (shape (to_arr W lw)) <> 1 ->
  path (systematic_call W nrm tr lw [("sample_dims", sd); ("batch_dim", bd)]) ds x ->
  ds = [] /\ x = Err AssertionError.
Proof.
  intros L W nrm tr lw sd bd ds x H Hp. unfold systematic_call in Hp. cbn [dget String.eqb Ascii.eqb Bool.eqb] in Hp.
  destruct H as [H|(Ht & -> & H)].
  - rewrite H in Hp. apply path_leaf_inv in Hp. destruct Hp as [-> <-]. split; reflexivity.
  - destruct (is_zero sd); [|apply path_leaf_inv in Hp; destruct Hp as [-> <-]; split; reflexivity].
    rewrite Ht in Hp. cbn [negb] in Hp. apply Nat.eqb_neq in H. rewrite H in Hp.
    apply path_leaf_inv in Hp. destruct Hp as [-> <-]. split; reflexivity.
Qed.
Print Assumptions C27_default_raises.
Example C27_two_particles : exists ds r s', path (run (RS w2 false) VNone kws2 (st0 TenL)) ds (Ok r, s').
Proof. destruct (RS_returns false) as (ds & r & s' & H & _). eauto. Qed.
Example C27_bad_sample_dims : is_zero (L := TenL) (VInt 1) = false /\ is_zero (L := TenL) VNone = false.
Proof. split; reflexivity. Qed.

(** ** C28 Systematic ancestors are valid indices *)
(** [alive lw]: some particle has a weight that is not zero, so that the normalised weights are
    defined. *)
Theorem C28_ancestors_valid : forall lw u, alive lw -> (0 <= u < 1)%R ->
  length (ancestors_of lw u) = length lw /\
  (forall i, In i (ancestors_of lw u) -> i < length lw) /\
  (forall k k', k <= k' -> k' < length lw -> nth k (ancestors_of lw u) 0 <= nth k' (ancestors_of lw u) 0).
Proof.
  intros lw u Ha Hu. split; [apply ancestors_length|]. split.
  - intros i. apply ancestors_range; assumption.
  - intros k k'. apply ancestors_sorted; assumption.
Qed.
Print Assumptions C28_ancestors_valid.
(** so gathering never fails: Systematic returns on every well-shaped trace and weight, for
    every value of the offsets *)
Theorem C28_vector_never_fails : forall (L : lib) (W : array_view L) nrm tr lw n (sd : pyval (T L)) v,
  is_zero sd = true -> is_tensor L lw = true -> shape (to_arr W lw) = [n] -> alive (column (to_arr W lw) []) ->
  (forall a r, In (a, r) tr -> movable W [n] r) ->
  (0 <= fin (at_ (to_arr W v) [0%nat]) < 1)%R ->
  exists tr2 lw2, path (systematic_call W nrm tr lw [("sample_dims", sd); ("batch_dim", VNone)]) [(DrawRand, v)] (Ok (tr2, lw2)).
Proof. exact @systematic_total_vector. Qed.
Print Assumptions C28_vector_never_fails.
Theorem C28_matrix_never_fails : forall (L : lib) (W : array_view L) nrm tr lw n b (sd : pyval (T L)) d v,
  is_zero sd = true -> is_tensor L lw = true -> shape (to_arr W lw) = [n; b] -> (d = 1 \/ d = -1)%Z -> 0 < n ->
  (forall j, j < b -> alive (column (to_arr W lw) [j])) ->
  (forall a r, In (a, r) tr -> movable W [n; b] r) ->
  (forall j, (j < b)%nat -> 0 <= fin (at_ (to_arr W v) [j]) < 1)%R ->
  exists tr2 lw2, path (systematic_call W nrm tr lw [("sample_dims", sd); ("batch_dim", VInt d)]) [(DrawRand, v)] (Ok (tr2, lw2)).
Proof. exact @systematic_total_matrix. Qed.
Print Assumptions C28_matrix_never_fails.
Example C28_weights : alive [NInf; Fin 1%R; Fin 2%R] /\ (0 <= 1/2 < 1)%R.
Proof. split; [exists 1%R; right; left; reflexivity|lra]. Qed.
Example C28_matrix_case :
  let lw := mat 3 2 (fun i j => INR (i + j)) in
  let tr := [("x", mkRV (L := TenL) (Proper (L := TenL) tt) (mat 3 2 (fun i j => INR i)) (mat 3 2 (fun i j => INR j)) SAMPLED true true)] in
  shape (to_arr TenV lw) = [3; 2] /\ (forall j, j < 2 -> alive (column (to_arr TenV lw) [j])) /\
  (forall a r, In (a, r) tr -> movable TenV [3; 2] r) /\
  (forall j, (j < 2)%nat -> 0 <= fin (at_ (to_arr TenV (vec [1/2; 1/3]%R)) [j]) < 1)%R.
Proof.
  split; [reflexivity|]. split.
  - intros j Hj. exists (INR (0 + j)). left. reflexivity.
  - split.
    + intros a r [H|[]]. injection H as <- <-. intros _.
      split; [reflexivity|]. split; [reflexivity|]. split; [reflexivity|]. split; [reflexivity|discriminate].
    + intros [|[|j]] Hj; [cbn; lra|cbn; lra|lia].
Qed.

(** ** C29 Systematic offspring counts are proportional to the weights *)
(** refuted as stated: torch.rand can return 0, and then a particle's offspring count can differ
    from n times its normalised weight by one although that product is an integer *)
Lemma ancestors_half : ancestors_of [Fin 0; Fin 0]%R 0 = [0; 0].
Proof.
  unfold ancestors_of, usteps, softmax, cumsum, rmax. cbn [map length seq cumsum_from rsum fold_right eexp fold_left INR].
  rewrite exp_0. replace (1 / (1 + (1 + 0)))%R with (1/2)%R by field.
  rewrite Rmax_right by lra. cbn [lower_bound].
  repeat match goal with |- context [Rlt_dec ?a ?b] => destruct (Rlt_dec a b); [exfalso; lra|] end. reflexivity.
Qed.
Theorem C29_floor_ceil_refuted : exists lw u i, alive lw /\ (0 <= u < 1)%R /\ i < length lw /\
  Z.of_nat (offspring (ancestors_of lw u) i) <> Int_part (INR (length lw) * nth i (softmax lw) 0)%R /\
  Z.of_nat (offspring (ancestors_of lw u) i) <> (- Int_part (- (INR (length lw) * nth i (softmax lw) 0))%R)%Z.
Proof.
  exists [Fin 0; Fin 0]%R, 0%R, 1. rewrite ancestors_half.
  split; [exists 0%R; left; reflexivity|]. split; [lra|]. split; [cbn; lia|].
  assert (E : (INR (length [Fin 0; Fin 0]%R) * nth 1 (softmax [Fin 0; Fin 0]%R) 0 = 1)%R).
  { unfold softmax. cbn [map length nth rsum fold_right eexp INR]. rewrite exp_0. field. }
  rewrite E. cbn [offspring filter Nat.eqb length Z.of_nat].
  assert (E1 : Int_part 1 = 1%Z).
  { unfold Int_part. replace (up 1) with 2%Z; [reflexivity|]. apply (up_spec 1 2%Z). lra. }
  assert (E2 : Int_part (- (1)) = (-1)%Z).
  { unfold Int_part. replace (up (- (1))) with 0%Z; [reflexivity|]. apply (up_spec (- (1)) 0%Z). lra. }
  rewrite E1, E2. split; discriminate.
Qed.
Print Assumptions C29_floor_ceil_refuted.
(** for every offset but 0, the count is the floor or the ceiling of n times the weight.
    Missing from the full property: the offset 0, for which it is false (above) *)
Theorem C29_floor_ceil_partial : forall lw u i, alive lw -> (0 < u < 1)%R -> i < length lw ->
  let expected := (INR (length lw) * nth i (softmax lw) 0)%R in
  Z.of_nat (offspring (ancestors_of lw u) i) = Int_part expected \/
  Z.of_nat (offspring (ancestors_of lw u) i) = (- Int_part (- expected)%R)%Z.
Proof. intros lw u i Ha Hu Hi. apply offspring_floor_ceil; [exact Ha|lra|exact Hi|lra]. Qed.
Print Assumptions C29_floor_ceil_partial.
(** for every offset, it is within one of it *)
Theorem C29_within_one : forall lw u i, alive lw -> (0 <= u < 1)%R -> i < length lw ->
  (-1 <= INR (offspring (ancestors_of lw u) i) - INR (length lw) * nth i (softmax lw) 0 <= 1)%R.
Proof. intros lw u i Ha Hu Hi. apply offspring_within; assumption. Qed.
Print Assumptions C29_within_one.
Example C29_case : alive [Fin 0; NInf; Fin 1]%R /\ (0 < 1/3 < 1)%R /\ 2 < length [Fin 0; NInf; Fin 1]%R.
Proof. split; [exists 0%R; left; reflexivity|]. split; [lra|cbn; lia]. Qed.

(** ** C30 Systematic resampling is unbiased *)
(** [is_RInt f 0 1 x] (Coquelicot): f is Riemann integrable on [0,1] with integral x *)
Theorem C30_expected_copies : forall lw i, alive lw -> i < length lw ->
  is_RInt (fun u => INR (offspring (ancestors_of lw u) i)) 0%R 1%R (INR (length lw) * nth i (softmax lw) 0)%R.
Proof. exact offspring_unbiased. Qed.
Print Assumptions C30_expected_copies.
(** the expected average of any function of the resampled particles is its weighted average *)
Theorem C30_unbiased : forall lw (f : nat -> R), alive lw ->
  is_RInt (fun u => rsum (map f (ancestors_of lw u)) / INR (length lw))%R 0%R 1%R
          (rsum (map (fun i => nth i (softmax lw) 0 * f i)%R (seq 0 (length lw)))).
Proof. exact average_unbiased. Qed.
Print Assumptions C30_unbiased.
Example C30_case : alive [Fin 0; NInf; Fin 1]%R /\ 2 < length [Fin 0; NInf; Fin 1]%R.
Proof. split; [exists 0%R; left; reflexivity|cbn; lia]. Qed.

(** ** C31 Weightless particles die *)
(** refuted: with offset 0, particle 0 is selected although its weight is zero *)
Theorem C31_weightless_refuted : exists lw u i, alive lw /\ (0 <= u < 1)%R /\ i < length lw /\
  nth i lw (Fin 0%R) = NInf /\ In i (ancestors_of lw u).
Proof.
  exists [NInf; Fin 0%R], 0%R, 0. split; [exists 0%R; right; left; reflexivity|]. split; [lra|]. split; [cbn; lia|].
  split; [reflexivity|]. left.
  unfold ancestors_of, usteps, softmax, cumsum, rmax. cbn [map length seq cumsum_from rsum fold_right eexp fold_left INR].
  rewrite exp_0. rewrite Rmax_right by lra. cbn [lower_bound].
  destruct (Rlt_dec _ _) as [H|H]; [|reflexivity]. exfalso.
  replace ((0 + 0 / (0 + (1 + 0))) / (0 + 0 / (0 + (1 + 0)) + 1 / (0 + (1 + 0))))%R with 0%R in H by field. lra.
Qed.
Print Assumptions C31_weightless_refuted.
(** for every other offset, or any other particle, it holds.  Missing from the full property:
    particle 0 at offset 0, for which it is false (above) *)
Theorem C31_weightless_die_partial : forall lw u i, alive lw -> (0 <= u < 1)%R -> i < length lw ->
  nth i (softmax lw) 0%R = 0%R -> i <> 0 \/ (0 < u)%R -> ~ In i (ancestors_of lw u).
Proof. intros lw u i Ha Hu Hi H0 Hor. apply weightless_dies; assumption. Qed.
Print Assumptions C31_weightless_die_partial.
(** the particles of weight zero are those of log-weight -inf *)
Theorem C31_weight_zero : forall lw i, alive lw -> i < length lw ->
  (nth i (softmax lw) 0%R = 0%R <-> nth i lw (Fin 0%R) = NInf).
Proof.
  intros lw i Ha Hi. pose proof (alive_pos lw Ha) as Hp. unfold softmax.
  rewrite (nth_indep _ 0%R ((fun x => (eexp x / rsum (map eexp lw))%R) (Fin 0%R))) by (rewrite map_length; exact Hi).
  rewrite (map_nth (fun x => (eexp x / rsum (map eexp lw))%R)).
  destruct (nth i lw (Fin 0%R)) as [|r]; cbn [eexp]; split; intros H; try discriminate; try reflexivity.
  - unfold Rdiv. lra.
  - exfalso. pose proof (Rdiv_lt_0_compat _ _ (exp_pos r) Hp). lra.
Qed.
Print Assumptions C31_weight_zero.
Example C31_case : alive [Fin 0; NInf]%R /\ 1 < length [Fin 0; NInf]%R /\ nth 1 [Fin 0; NInf]%R (Fin 0%R) = NInf.
Proof. split; [exists 0%R; left; reflexivity|]. split; [cbn; lia|reflexivity]. Qed.

(** ** C32 Resampling preserves total weight *)
(** without normalize_weights *)
Theorem C32_mean_weight : forall (L : lib) (W : array_view L) oid q self_ix l0 dbg c kws s ds r s',
  path (run (L := L) (IResample oid q self_ix l0 (systematic W false) dbg) c kws s) ds (Ok r, s') ->
  exists ds1 qo s1, path (run q c (sub_kwargs self_ix kws) s) ds1 (Ok qo, s1) /\
    let lw := to_arr W (out_lw qo) in let lw' := to_arr W (out_lw r) in
    forall k rest, In (k :: rest) (indices (shape lw')) ->
      at_ lw' (k :: rest) = elog (rsum (map eexp (column lw rest)) / INR (length (column lw rest))) /\
      log_Z_hat (column lw' rest) = log_Z_hat (column lw rest).
Proof.
  intros L W oid q self_ix l0 dbg c kws s ds r s' H. apply run_resample_path in H.
  destruct H as (ds1 & ds2 & qo & s1 & items & lw2 & c1 & c2 & st2 & _ & Hq & Hr & _ & _ & _ & _ & _ & -> & _).
  rewrite passable_systematic in Hr. cbn [rs_call systematic] in Hr. apply path_outcome, systematic_weights in Hr.
  exists ds1, qo, s1. split; [exact Hq|]. cbn zeta. intros k rest Hi. apply (proj2 Hr k rest Hi). reflexivity.
Qed.
Print Assumptions C32_mean_weight.
(** with normalize_weights *)
Theorem C32_normalised : forall (L : lib) (W : array_view L) oid q self_ix l0 dbg c kws s ds r s',
  path (run (L := L) (IResample oid q self_ix l0 (systematic W true) dbg) c kws s) ds (Ok r, s') ->
  exists ds1 qo s1, path (run q c (sub_kwargs self_ix kws) s) ds1 (Ok qo, s1) /\
    let lw := to_arr W (out_lw qo) in let lw' := to_arr W (out_lw r) in
    forall k rest, In (k :: rest) (indices (shape lw')) -> alive (column lw rest) ->
      at_ lw' (k :: rest) = Fin (- ln (INR (nth 0 (shape lw) 0))).
Proof.
  intros L W oid q self_ix l0 dbg c kws s ds r s' H. apply run_resample_path in H.
  destruct H as (ds1 & ds2 & qo & s1 & items & lw2 & c1 & c2 & st2 & _ & Hq & Hr & _ & _ & _ & _ & _ & -> & _).
  rewrite passable_systematic in Hr. cbn [rs_call systematic] in Hr. apply path_outcome, systematic_weights in Hr.
  exists ds1, qo, s1. split; [exact Hq|]. cbn zeta. intros k rest Hi Ha. apply (proj2 Hr k rest Hi); [reflexivity|exact Ha].
Qed.
Print Assumptions C32_normalised.
Example C32_two_particles : forall nrm, exists ds r s', path (run (RS w2 nrm) VNone kws2 (st0 TenL)) ds (Ok r, s').
Proof. intros nrm. destruct (RS_returns nrm) as (ds & r & s' & H & _). eauto. Qed.

(** ** C33 Resampling preserves the weight's shape *)
(** with a batch dimension it does.  Missing from the full property: calls without a batch
    dimension, for which it is false (below) *)
Theorem C33_shape_partial : forall (L : lib) (W : array_view L) nrm tr lw (sd bd : pyval (T L)) tr2 lw2,
  outcome (systematic_call W nrm tr lw [("sample_dims", sd); ("batch_dim", bd)]) (Ok (tr2, lw2)) ->
  bd <> VNone -> shape (to_arr W lw2) = shape (to_arr W lw).
Proof.
  intros L W nrm tr lw sd bd tr2 lw2 H Hb. apply systematic_weights in H. destruct H as [-> _].
  destruct bd; [congruence|..]; apply app_nil_r.
Qed.
Print Assumptions C33_shape_partial.
(** without one it never does: a dimension of size one is appended *)
Theorem C33_shape_without_batch : forall (L : lib) (W : array_view L) nrm tr lw (sd : pyval (T L)) tr2 lw2,
  outcome (systematic_call W nrm tr lw [("sample_dims", sd); ("batch_dim", VNone)]) (Ok (tr2, lw2)) ->
  shape (to_arr W lw2) = shape (to_arr W lw) ++ [1].
Proof. intros L W nrm tr lw sd tr2 lw2 H. apply systematic_weights in H. apply H. Qed.
Print Assumptions C33_shape_without_batch.
Theorem C33_shape_refuted : exists (L : lib) (W : array_view L) tr lw (sd bd : pyval (T L)) tr2 lw2,
  outcome (systematic_call W false tr lw [("sample_dims", sd); ("batch_dim", bd)]) (Ok (tr2, lw2)) /\
  shape (to_arr W lw2) <> shape (to_arr W lw).
Proof.
  destruct (systematic_total_vector TenV false
     [("x", mkRV (L := TenL) (Proper (L := TenL) tt) x2 x2 SAMPLED true true)] w2 2 (VInt 0) u2) as (tr2 & lw2 & H).
  - reflexivity.
  - reflexivity.
  - reflexivity.
  - exists 0%R. left. reflexivity.
  - intros a r [E|[]]. injection E as <- <-. intros _.
    split; [reflexivity|]. split; [reflexivity|]. split; [reflexivity|]. split; [reflexivity|discriminate].
  - cbn. lra.
  - apply path_outcome in H. exists TenL, TenV, [("x", mkRV (L := TenL) (Proper (L := TenL) tt) x2 x2 SAMPLED true true)], w2, (VInt 0), VNone, tr2, lw2.
    split; [exact H|]. apply C33_shape_without_batch in H. rewrite H. discriminate.
Qed.
Print Assumptions C33_shape_refuted.
