(** Proofs of C26, C27, C32, C33: Resample with the Systematic resampler. *)
From Coq Require Import Lra.
From Verif Require Export SpecResample Thm_Scope Thm_Resample.
Close Scope R_scope.
Open Scope nat_scope.

Lemma shape_eqb_eq a b : shape_eqb a b = true <-> a = b.
Proof.
  revert b. induction a as [|x a IH]; intros [|y b]; cbn; split; intros H; try discriminate; try reflexivity.
  - apply andb_true_iff in H. destruct H as [H1 H2]. apply Nat.eqb_eq in H1. apply IH in H2. congruence.
  - injection H as <- <-. apply andb_true_iff. split; [apply Nat.eqb_refl|apply IH; reflexivity].
Qed.
Lemma indices_spec sh idx : In idx (indices sh) <-> length idx = length sh /\ forall d, d < length sh -> nth d idx 0 < nth d sh 0.
Proof.
  revert idx. induction sh as [|n sh IH]; intros idx; cbn [indices length].
  - cbn. split.
    + intros [<-|[]]. split; [reflexivity|]. intros d Hd. lia.
    + intros [H _]. left. destruct idx; [reflexivity|discriminate].
  - rewrite in_flat_map. split.
    + intros (i & Hi & H). apply in_map_iff in H. destruct H as (l & <- & H). apply IH in H. apply in_seq in Hi.
      destruct H as [H1 H2]. split; [cbn; lia|]. intros [|d] Hd; cbn; [lia|]. apply H2. lia.
    + intros [H1 H2]. destruct idx as [|i idx]; [discriminate|]. exists i. split.
      * apply in_seq. specialize (H2 0). cbn in H2. lia.
      * apply in_map. apply IH. split; [cbn in H1; lia|]. intros d Hd. apply (H2 (S d)). lia.
Qed.

Lemma Forall2_weaken {A B} (R1 R2 : A -> B -> Prop) l l' :
  (forall a b, R1 a b -> R2 a b) -> Forall2 R1 l l' -> Forall2 R2 l l'.
Proof. intros H. induction 1; constructor; auto. Qed.

Lemma path_draw_inv {L : lib} {A} d (k : T L -> stree L A) ds a :
  path (Draw d k) ds a -> exists v ds', ds = (d, v) :: ds' /\ path (k v) ds' a.
Proof. intros H. inversion H; subst. eexists _, _. split; [reflexivity|assumption]. Qed.
Lemma path_mbind_inv {L : lib} {A B} (m : M L A) (f : A -> M L B) s ds b s' :
  path (mbind m f s) ds (Ok b, s') ->
  exists ds1 a s1 ds2, path (m s) ds1 (Ok a, s1) /\ path (f a s1) ds2 (Ok b, s') /\ ds = ds1 ++ ds2.
Proof.
  intros H. unfold mbind in H. apply path_tbind in H. destruct H as (ds1 & [[a|e] s1] & ds2 & H1 & H2 & ->).
  - exists ds1, a, s1, ds2. auto.
  - apply path_leaf_inv in H2. destruct H2 as [_ H2]. discriminate.
Qed.

Section Sys.
  Context {L : lib} (W : array_view L).
  Notation kwargs := (dict (pyval (T L))).

  Lemma pick_ok z aidx x : pick W z aidx = Ok x ->
    is_tensor L z = true /\ firstn (length (ishape aidx)) (shape (to_arr W z)) = ishape aidx /\
    (forall i, In i (indices (ishape aidx)) -> iat aidx i < nth 0 (shape (to_arr W z)) 0) /\
    to_arr W x = mkArr (shape (to_arr W z)) (fun idx => at_ (to_arr W z) (iat aidx (firstn (length (ishape aidx)) idx) :: tl idx)).
  Proof.
    unfold pick. destruct (is_tensor L z) eqn:Et; cbn [negb]; [|discriminate].
    destruct (shape_eqb _ _) eqn:Es; cbn [negb]; [|discriminate]. apply shape_eqb_eq in Es.
    destruct (forallb _ _) eqn:Ef; cbn [negb]; [|discriminate]. intros [= <-].
    split; [reflexivity|]. split; [exact Es|]. split.
    - intros i Hi. rewrite forallb_forall in Ef. apply Nat.ltb_lt, Ef, Hi.
    - apply to_of.
  Qed.

  Lemma resample_nodes_ok aidx tr tr2 : resample_nodes W aidx tr = Ok tr2 ->
    Forall2 (fun kr kr' => fst kr' = fst kr /\ resample_rv W aidx (snd kr) = Ok (snd kr')) tr tr2.
  Proof.
    revert tr2. induction tr as [|[k r] tr IH]; intros tr2; cbn [resample_nodes].
    - intros [= <-]. constructor.
    - destruct (resample_rv W aidx r) as [r'|] eqn:Er; cbn [rbind]; [|discriminate].
      destruct (resample_nodes W aidx tr) as [t2|]; cbn [rbind]; [|discriminate]. intros [= <-].
      constructor; [split; [reflexivity|exact Er]|]. apply IH. reflexivity.
  Qed.

  Lemma resample_rv_spec aidx anc r r' :
    (forall x k rest, firstn (length (ishape aidx)) (shape x) = ishape aidx ->
       In (k :: rest) (indices (shape x)) -> iat aidx (firstn (length (ishape aidx)) (k :: rest)) = anc k rest) ->
    resample_rv W aidx r = Ok r' -> resampled_rv W anc r r'.
  Proof.
    intros Ha. unfold resample_rv, resampled_rv, moves.
    destruct (rv_resamplable r), (is_observed r); cbn [negb orb andb]; try (intros [= <-]; reflexivity).
    destruct (pick W (rv_value r) aidx) as [v|] eqn:Ev; cbn [rbind]; [|discriminate].
    destruct (pick W (rv_logp r) aidx) as [l|] eqn:El; cbn [rbind]; [|discriminate].
    apply pick_ok in Ev. apply pick_ok in El. destruct Ev as (_ & Sv & _ & Ev). destruct El as (_ & Sl & _ & El).
    assert (G : forall z x, firstn (length (ishape aidx)) (shape (to_arr W z)) = ishape aidx ->
      to_arr W x = mkArr (shape (to_arr W z)) (fun idx => at_ (to_arr W z) (iat aidx (firstn (length (ishape aidx)) idx) :: tl idx)) ->
      gathered (to_arr W z) (to_arr W x) anc).
    { intros z x Hs ->. split; [reflexivity|]. intros k rest Hi. cbn [at_ tl]. rewrite (Ha (to_arr W z) k rest Hs Hi). reflexivity. }
    destruct (rv_den r) eqn:Ed; intros E; try discriminate; injection E as <-; cbn [rv_value rv_logp rv_den rv_prov];
      (split; [apply G; assumption|split; [apply G; assumption|split; reflexivity]]).
  Qed.

  (** the shape of the weight the resampler works on, the returned arrays *)
  Lemma systematic_path nrm tr lw (sd bd : pyval (T L)) ds tr2 lw2 :
    path (systematic_call W nrm tr lw [("sample_dims", sd); ("batch_dim", bd)]) ds (Ok (tr2, lw2)) ->
    is_zero sd = true /\ is_tensor L lw = true /\
    (bd = VNone -> length (shape (to_arr W lw)) = 1) /\
    let nb := if is_none bd then 0 else 1 in
    exists v lw1, ds = [(DrawRand, v)] /\
      lw1 = (if is_none bd then unsqueeze1 (to_arr W lw) else to_arr W lw) /\
      0 < nth 0 (shape (to_arr W lw)) 0 /\
      (length (shape (to_arr W lw)) = 1 \/ length (shape (to_arr W lw)) = 2) /\
      resampled_trace W (ancestor (to_arr W lw) nb (fun b => fin (at_ (to_arr W v) [nth 0 b 0]))) tr tr2 /\
      to_arr W lw2 = (if nrm then log_softmax (mean_weight lw1) else mean_weight lw1).
  Proof.
    unfold systematic_call. cbn [dget String.eqb Ascii.eqb Bool.eqb].
    destruct (is_zero sd) eqn:Esd; cbn [negb]; [|intros H; apply path_leaf_inv in H; destruct H; discriminate].
    destruct (is_tensor L lw) eqn:Et; cbn [negb]; [|intros H; apply path_leaf_inv in H; destruct H; discriminate].
    (* the explicit batch dimension *)
    assert (Exp : forall d : Z,
      path (tbind (ancestor_indices W (to_arr W lw) d) (fun r =>
         Leaf (rbind r (fun aidx => rbind (resample_nodes W aidx tr) (fun tr2 =>
            let lw1 := mean_weight (to_arr W lw) in Ok (tr2, of_arr W (if nrm then log_softmax lw1 else lw1)))))))
        ds (Ok (tr2, lw2)) ->
      exists v, ds = [(DrawRand, v)] /\ 0 < nth 0 (shape (to_arr W lw)) 0 /\
        (length (shape (to_arr W lw)) = 1 \/ length (shape (to_arr W lw)) = 2) /\
        resampled_trace W (ancestor (to_arr W lw) 1 (fun b => fin (at_ (to_arr W v) [nth 0 b 0]))) tr tr2 /\
        to_arr W lw2 = (if nrm then log_softmax (mean_weight (to_arr W lw)) else mean_weight (to_arr W lw))).
    { intros d H. apply path_tbind in H. destruct H as (ds1 & ra & ds2 & Ha & H & ->). apply path_leaf_inv in H. destruct H as [-> H]. rewrite app_nil_r.
      destruct ra as [aidx|]; cbn [rbind] in H; [|discriminate].
      destruct (resample_nodes W aidx tr) as [t2|] eqn:En; cbn [rbind] in H; [|discriminate].
      injection H as <- <-. unfold ancestor_indices in Ha.
      destruct (shape (to_arr W lw)) as [|n sh] eqn:Esh; [apply path_leaf_inv in Ha; destruct Ha; discriminate|].
      destruct (norm_dim (length (n :: sh)) d) as [dd|]; [|apply path_leaf_inv in Ha; destruct Ha; discriminate].
      apply path_draw_inv in Ha. destruct Ha as (v & ds' & -> & Ha). exists v.
      destruct (Nat.eqb_spec n 0) as [|Hn]; [apply path_leaf_inv in Ha; destruct Ha; discriminate|].
      assert (G : exists b col, ds' = [] /\ aidx = mkIarr [n; b] (fun idx =>
                 nth (nth 0 idx 0) (ancestors_of (fiber0 (to_arr W lw) (col (nth 1 idx 0))) (fin (at_ (to_arr W v) [nth 1 idx 0]))) 0)
               /\ (sh = [] /\ col = (fun _ => []) \/ sh = [b] /\ col = (fun j => [j]))).
      { destruct sh as [|m [|? ?]].
        - apply path_leaf_inv in Ha. destruct Ha as [-> Ha]. injection Ha as <-. eexists _, (fun _ => []). split; [reflexivity|split; [reflexivity|left; split; reflexivity]].
        - destruct (Nat.eqb_spec m (nth dd [n; m] 0)) as [Em|]; [|apply path_leaf_inv in Ha; destruct Ha; discriminate].
          apply path_leaf_inv in Ha. destruct Ha as [-> Ha]. injection Ha as <-. eexists _, (fun j => [j]). split; [reflexivity|split; [reflexivity|right; split; [f_equal; exact Em|reflexivity]]].
        - apply path_leaf_inv in Ha; destruct Ha; discriminate. }
      clear Ha. destruct G as (b & col & -> & -> & Hcol). cbn [nth].
      split; [reflexivity|]. split; [lia|]. split; [destruct Hcol as [[-> _]|[-> _]]; [left|right]; reflexivity|]. split; [|apply to_of].
      apply resample_nodes_ok in En. unfold resampled_trace. eapply Forall2_weaken; [|exact En].
      intros [k r] [k' r']; cbn [fst snd]. intros [-> Hr]. split; [reflexivity|].
      eapply resample_rv_spec; [|exact Hr]. intros x i rest Hs Hi. cbn [ishape length firstn iat nth] in *.
      destruct rest as [|j rest].
      - exfalso. apply indices_spec in Hi. destruct Hi as [Hi _]. cbn in Hi. destruct (shape x) as [|? [|? ?]]; cbn in *; discriminate.
      - unfold ancestor. cbn [firstn nth]. unfold column. rewrite Esh. unfold fiber0. rewrite Esh. cbn [nth length].
        destruct Hcol as [[-> ->]|[-> ->]]; reflexivity. }
    destruct bd; try (intros H; apply path_leaf_inv in H; destruct H; discriminate).
    - (* None *)
      destruct (Nat.eqb_spec (length (shape (to_arr W lw))) 1) as [E1|]; cbn [negb]; [|intros H; apply path_leaf_inv in H; destruct H; discriminate].
      intros H. split; [reflexivity|]. split; [reflexivity|]. split; [intros _; exact E1|]. cbn [is_none].
      apply path_tbind in H. destruct H as (ds1 & ra & ds2 & Ha & H & ->). apply path_leaf_inv in H. destruct H as [-> H]. rewrite app_nil_r.
      destruct ra as [aidx|]; cbn [rmap rbind] in H; [|discriminate].
      destruct (resample_nodes W (squeeze1 aidx) tr) as [t2|] eqn:En; cbn [rbind] in H; [|discriminate].
      injection H as <- <-. unfold ancestor_indices in Ha.
      destruct (shape (to_arr W lw)) as [|n [|? ?]] eqn:Esh; try discriminate.
      assert (Esh1 : shape (unsqueeze1 (to_arr W lw)) = [n; 1]) by (cbn; rewrite Esh; reflexivity).
      rewrite Esh1 in Ha. change (norm_dim (length [n; 1]) 1) with (Some 1) in Ha. cbv iota beta in Ha.
      apply path_draw_inv in Ha. destruct Ha as (v & ds' & -> & Ha). exists v, (unsqueeze1 (to_arr W lw)).
      destruct (Nat.eqb_spec n 0) as [|Hn]; [apply path_leaf_inv in Ha; destruct Ha; discriminate|].
      change (1 =? nth 1 [n; 1] 0) with true in Ha. apply path_leaf_inv in Ha. destruct Ha as [-> Ha]. injection Ha as <-.
      split; [reflexivity|]. split; [reflexivity|]. split; [cbn; lia|]. split; [left; reflexivity|]. split; [|apply to_of].
      apply resample_nodes_ok in En. unfold resampled_trace. eapply Forall2_weaken; [|exact En].
      intros [k r] [k' r']; cbn [fst snd]. intros [-> Hr]. split; [reflexivity|].
      eapply resample_rv_spec; [|exact Hr]. intros x i rest Hs Hi. cbn [ishape squeeze1 length firstn iat app nth] in *.
      unfold ancestor. cbn [firstn nth]. unfold column. rewrite Esh. unfold fiber0. rewrite Esh1. reflexivity.
    - intros H. split; [reflexivity|]. split; [reflexivity|]. split; [discriminate|].
      apply (Exp (if b then 1 else 0)%Z) in H. destruct H as (v & Hd & H). exists v, (to_arr W lw). split; [exact Hd|]. split; [reflexivity|exact H].
    - intros H. split; [reflexivity|]. split; [reflexivity|]. split; [discriminate|].
      apply (Exp z) in H. destruct H as (v & Hd & H). exists v, (to_arr W lw). split; [exact Hd|]. split; [reflexivity|exact H].
  Qed.

  Lemma systematic_ok nrm tr lw (sd bd : pyval (T L)) tr2 lw2 :
    outcome (systematic_call W nrm tr lw [("sample_dims", sd); ("batch_dim", bd)]) (Ok (tr2, lw2)) ->
    is_zero sd = true /\ is_tensor L lw = true /\
    (bd = VNone -> length (shape (to_arr W lw)) = 1) /\
    let nb := if is_none bd then 0 else 1 in
    exists v lw1,
      lw1 = (if is_none bd then unsqueeze1 (to_arr W lw) else to_arr W lw) /\
      0 < nth 0 (shape (to_arr W lw)) 0 /\
      (length (shape (to_arr W lw)) = 1 \/ length (shape (to_arr W lw)) = 2) /\
      resampled_trace W (ancestor (to_arr W lw) nb (fun b => fin (at_ (to_arr W v) [nth 0 b 0]))) tr tr2 /\
      to_arr W lw2 = (if nrm then log_softmax (mean_weight lw1) else mean_weight lw1).
  Proof.
    intros H. apply outcome_path in H. destruct H as [ds H]. apply systematic_path in H.
    destruct H as (H1 & H2 & H3 & v & lw1 & _ & H). split; [exact H1|]. split; [exact H2|]. split; [exact H3|].
    exists v, lw1. exact H.
  Qed.

  (** ** Success on well-shaped input *)
  Lemma firstn_nth0 (r : nat) (l sh : list nat) : 0 < r -> firstn r l = sh -> nth 0 l 0 = nth 0 sh 0.
  Proof. intros Hr <-. destruct r; [lia|]. destruct l; reflexivity. Qed.
  Lemma pick_total z aidx : is_tensor L z = true -> 0 < length (ishape aidx) ->
    firstn (length (ishape aidx)) (shape (to_arr W z)) = ishape aidx ->
    (forall i, In i (indices (ishape aidx)) -> iat aidx i < nth 0 (ishape aidx) 0) ->
    exists x, pick W z aidx = Ok x.
  Proof.
    intros Ht Hr Hs Hi. unfold pick. rewrite Ht. cbn [negb].
    rewrite (proj2 (shape_eqb_eq _ _) Hs). cbn [negb].
    rewrite (proj2 (forallb_forall _ _)); [eexists; reflexivity|].
    intros i H. apply Nat.ltb_lt. rewrite (firstn_nth0 _ _ _ Hr Hs). apply Hi, H.
  Qed.
  Lemma resample_nodes_total aidx tr : 0 < length (ishape aidx) ->
    (forall i, In i (indices (ishape aidx)) -> iat aidx i < nth 0 (ishape aidx) 0) ->
    (forall a r, In (a, r) tr -> movable W (ishape aidx) r) ->
    exists tr2, resample_nodes W aidx tr = Ok tr2.
  Proof.
    intros Hr Hi. induction tr as [|[a r] tr IH]; intros Hm; [eexists; reflexivity|].
    destruct IH as [tr2 E2]; [intros b r' H; apply (Hm b); right; exact H|].
    pose proof (Hm a r (or_introl eq_refl)) as Hm1. unfold movable, moves in Hm1. cbn [resample_nodes].
    assert (E : exists r', resample_rv W aidx r = Ok r').
    { unfold resample_rv. destruct (rv_resamplable r), (is_observed r); cbn [negb orb andb] in *; try (eexists; reflexivity).
      destruct (Hm1 eq_refl) as (H1 & H2 & H3 & H4 & H5).
      destruct (pick_total _ _ H1 Hr H2 Hi) as [v ->]. destruct (pick_total _ _ H3 Hr H4 Hi) as [l ->]. cbn [rbind].
      destruct (rv_den r); [eexists; reflexivity|eexists; reflexivity|congruence]. }
    destruct E as [r' ->]. rewrite E2. eexists; reflexivity.
  Qed.

  (** without a batch dimension *)
  Lemma systematic_total_vector nrm tr lw n (sd : pyval (T L)) v :
    is_zero sd = true -> is_tensor L lw = true -> shape (to_arr W lw) = [n] -> alive (column (to_arr W lw) []) ->
    (forall a r, In (a, r) tr -> movable W [n] r) ->
    (0 <= fin (at_ (to_arr W v) [0%nat]) < 1)%R ->
    exists tr2 lw2, path (systematic_call W nrm tr lw [("sample_dims", sd); ("batch_dim", VNone)]) [(DrawRand, v)] (Ok (tr2, lw2)).
  Proof.
    intros Hsd Ht Hs Ha Hm Hu. unfold systematic_call. cbn [dget String.eqb Ascii.eqb Bool.eqb].
    rewrite Hsd, Ht, Hs. cbn [negb length Nat.eqb]. unfold ancestor_indices.
    assert (Esh1 : shape (unsqueeze1 (to_arr W lw)) = [n; 1]) by (cbn; rewrite Hs; reflexivity).
    rewrite Esh1. change (norm_dim (length [n; 1]) 1) with (Some 1). cbv iota beta.
    assert (Hn : n <> 0). { intros ->. destruct Ha as [r Ha]. unfold column in Ha. rewrite Hs in Ha. destruct Ha. }
    cbn [tbind nth Nat.eqb]. destruct (Nat.eqb_spec n 0) as [|_]; [contradiction|].
    cbn [tbind rmap rbind]. match goal with |- exists a b, path (Draw _ ?k) _ _ =>
      enough (G : exists a b, k v = Leaf (Ok (a, b))) by (destruct G as (a & b & G); exists a, b; constructor; rewrite G; constructor) end.
    cbv beta. set (aidx := squeeze1 _).
    assert (Hlen : length (column (to_arr W lw) []) = n) by (unfold column; rewrite map_length, seq_length, Hs; reflexivity).
    destruct (resample_nodes_total aidx tr) as [tr2 E2].
    - cbn. lia.
    - intros i Hi. cbn [ishape aidx squeeze1 firstn] in *. apply indices_spec in Hi. destruct Hi as [H1 H2].
      destruct i as [|k [|? ?]]; try discriminate.
      change (nth k (ancestors_of (fiber0 (unsqueeze1 (to_arr W lw)) [0]) (fin (at_ (to_arr W v) [0]))) 0 < n).
      specialize (H2 0 ltac:(cbn; lia)). cbn [nth] in H2.
      replace (fiber0 (unsqueeze1 (to_arr W lw)) [0]) with (column (to_arr W lw) []).
      2:{ unfold column, fiber0. rewrite Hs, Esh1. reflexivity. }
      pose proof (ancestors_range _ Ha _ Hu) as Hr. rewrite Hlen in Hr. apply Hr. apply nth_In. rewrite ancestors_length, Hlen. exact H2.
    - exact Hm.
    - rewrite E2. cbn [rbind]. eexists _, _. reflexivity.
  Qed.
  (** with a batch dimension *)
  Lemma systematic_total_matrix nrm tr lw n b (sd : pyval (T L)) d v :
    is_zero sd = true -> is_tensor L lw = true -> shape (to_arr W lw) = [n; b] -> (d = 1 \/ d = -1)%Z -> 0 < n ->
    (forall j, j < b -> alive (column (to_arr W lw) [j])) ->
    (forall a r, In (a, r) tr -> movable W [n; b] r) ->
    (forall j, (j < b)%nat -> 0 <= fin (at_ (to_arr W v) [j]) < 1)%R ->
    exists tr2 lw2, path (systematic_call W nrm tr lw [("sample_dims", sd); ("batch_dim", VInt d)]) [(DrawRand, v)] (Ok (tr2, lw2)).
  Proof.
    intros Hsd Ht Hs Hd Hn Ha Hm Hu. unfold systematic_call. cbn [dget String.eqb Ascii.eqb Bool.eqb].
    rewrite Hsd, Ht. cbn [negb]. unfold ancestor_indices. rewrite Hs.
    replace (norm_dim (length [n; b]) d) with (Some 1) by (destruct Hd as [-> | ->]; reflexivity).
    cbn [nth tbind]. destruct (Nat.eqb_spec n 0) as [|_]; [lia|]. rewrite Nat.eqb_refl. cbn [tbind rbind]. match goal with |- exists a b, path (Draw _ ?k) _ _ =>
      enough (G : exists a b, k v = Leaf (Ok (a, b))) by (destruct G as (a' & b' & G); exists a', b'; constructor; rewrite G; constructor) end.
    cbv beta. set (aidx := mkIarr _ _).
    destruct (resample_nodes_total aidx tr) as [tr2 E2].
    - cbn. lia.
    - intros i Hi. cbn [ishape aidx] in *. apply indices_spec in Hi. destruct Hi as [H1 H2].
      destruct i as [|k [|j [|? ?]]]; try discriminate.
      change (nth k (ancestors_of (fiber0 (to_arr W lw) [j]) (fin (at_ (to_arr W v) [j]))) 0 < n).
      pose proof (H2 0 ltac:(cbn; lia)) as Hk. pose proof (H2 1 ltac:(cbn; lia)) as Hj. cbn [nth] in Hk, Hj.
      replace (fiber0 (to_arr W lw) [j]) with (column (to_arr W lw) [j]).
      2:{ unfold column, fiber0. rewrite Hs. reflexivity. }
      assert (Hlen : length (column (to_arr W lw) [j]) = n) by (unfold column; rewrite map_length, seq_length, Hs; reflexivity).
      pose proof (ancestors_range _ (Ha j Hj) _ (Hu j Hj)) as Hr. rewrite Hlen in Hr. apply Hr. apply nth_In. rewrite ancestors_length, Hlen. exact Hk.
    - exact Hm.
    - rewrite E2. cbn [rbind]. eexists _, _. reflexivity.
  Qed.

  (** ** The new log-weight *)
  Lemma fiber0_column_vec lw rest : length (shape lw) = 1 -> fiber0 (unsqueeze1 lw) rest = column lw rest.
  Proof.
    intros H. unfold fiber0, column. rewrite H. cbn [unsqueeze1 shape at_ firstn Nat.sub].
    destruct (shape lw) as [|n [|? ?]]; [discriminate|reflexivity|discriminate].
  Qed.
  Lemma fiber0_column lw rest : length rest = length (shape lw) - 1 -> fiber0 lw rest = column lw rest.
  Proof. intros H. unfold fiber0, column. rewrite <- H, firstn_all. reflexivity. Qed.
  Lemma fiber0_length a rest : length (fiber0 a rest) = nth 0 (shape a) 0.
  Proof. unfold fiber0. rewrite map_length, seq_length. reflexivity. Qed.

  Lemma systematic_weights nrm tr lw (sd bd : pyval (T L)) tr2 lw2 :
    outcome (systematic_call W nrm tr lw [("sample_dims", sd); ("batch_dim", bd)]) (Ok (tr2, lw2)) ->
    let a := to_arr W lw in let a' := to_arr W lw2 in
    shape a' = shape a ++ (if is_none bd then [1] else []) /\
    forall k rest, In (k :: rest) (indices (shape a')) ->
      (nrm = false ->
        at_ a' (k :: rest) = log_Z_hat (column a rest) /\
        log_Z_hat (column a' rest) = log_Z_hat (column a rest)) /\
      (nrm = true -> alive (column a rest) -> at_ a' (k :: rest) = Fin (- ln (INR (nth 0 (shape a) 0)))).
  Proof.
    intros H. apply systematic_ok in H. destruct H as (_ & _ & Hb & v & lw1 & E1 & Hn & Hr & _ & E2). cbn zeta. rewrite E2.
    assert (Hs : shape lw1 = shape (to_arr W lw) ++ (if is_none bd then [1] else [])).
    { rewrite E1. destruct bd; cbn [is_none]; try (rewrite app_nil_r; reflexivity). reflexivity. }
    assert (Hf : forall k rest, In (k :: rest) (indices (shape lw1)) -> fiber0 lw1 rest = column (to_arr W lw) rest).
    { intros k rest Hi. apply indices_spec in Hi. destruct Hi as [Hi _]. rewrite E1 in *. destruct bd; cbn [is_none] in *;
        try (apply fiber0_column; cbn in Hi; lia).
      apply fiber0_column_vec. apply Hb. reflexivity. }
    assert (Hn1 : nth 0 (shape lw1) 0 = nth 0 (shape (to_arr W lw)) 0).
    { rewrite Hs. destruct (shape (to_arr W lw)); [cbn in Hn; lia|reflexivity]. }
    assert (Hsh : shape (if nrm then log_softmax (mean_weight lw1) else mean_weight lw1) = shape lw1) by (destruct nrm; reflexivity).
    rewrite Hsh. split; [exact Hs|]. intros k rest Hi.
    assert (Hmw : forall k', at_ (mean_weight lw1) (k' :: rest) = log_Z_hat (column (to_arr W lw) rest)).
    { intros k'. cbn [mean_weight at_ tl]. rewrite <- (fiber0_length lw1 rest), (Hf k rest Hi). apply logmean_Z_hat. }
    split.
    - intros ->. split; [apply Hmw|].
      assert (Ec : column (mean_weight lw1) rest = map (fun _ => elog (Z_hat (column (to_arr W lw) rest))) (seq 0 (nth 0 (shape lw1) 0))).
      { unfold column at 1. apply map_ext. intros k'. replace (firstn _ rest) with rest; [apply Hmw|].
        symmetry. apply firstn_all2. apply indices_spec in Hi. destruct Hi as [Hi _]. cbn in Hi |- *. lia. }
      rewrite Ec. apply log_Z_hat_const; [lia|apply Z_hat_ge0].
    - intros -> Ha. cbn [log_softmax at_ tl nth].
      assert (Ec : fiber0 (mean_weight lw1) rest = map (fun _ => elog (Z_hat (column (to_arr W lw) rest))) (seq 0 (nth 0 (shape lw1) 0))).
      { unfold fiber0. apply map_ext. intros k'. apply Hmw. }
      rewrite Ec. pose proof (Z_hat_pos _ Ha) as Hz. set (z := Z_hat _) in *. set (n := nth 0 (shape lw1) 0) in *.
      assert (Hk : k < n). { apply indices_spec in Hi. destruct Hi as [Hl Hi]. specialize (Hi 0). cbn in Hi. apply Hi. cbn in Hl. lia. }
      unfold softmax. rewrite !map_map.
      rewrite (nth_indep _ 0%R ((fun _ : nat => eexp (elog z) / rsum (map (fun _ => eexp (elog z)) (seq 0 n)))%R 0%nat)).
      2:{ rewrite map_length, seq_length. exact Hk. }
      rewrite (map_nth (fun _ : nat => (eexp (elog z) / rsum (map (fun _ => eexp (elog z)) (seq 0 n)))%R) (seq 0 n) 0 k).
      rewrite rsum_const, seq_length, eexp_elog by lra. rewrite <- Hn1.
      assert (HnR : (0 < INR n)%R) by (apply lt_0_INR; lia).
      replace (z / (INR n * z))%R with (/ INR n)%R by (field; lra).
      unfold elog. destruct (Rlt_dec 0 (/ INR n)) as [_|Hx]; [|exfalso; apply Hx, Rinv_0_lt_compat, HnR].
      rewrite ln_Rinv by exact HnR. reflexivity.
  Qed.

  (** ** Resample *)
  Lemma resample_output_ok c1 (tr2 : trace L) c2 : resample_output c1 tr2 = Ok c2 ->
    output_follows tr2 c1 c2 /\ (forall k v, In (k, v) c1 -> In k (dkeys tr2) -> exists t, v = VTensor t).
  Proof.
    revert c2. induction c1 as [|[k v] c1 IH]; intros c2; cbn [resample_output].
    - intros [= <-]. split; [constructor|]. intros k v [].
    - destruct (dget k tr2) as [r|] eqn:Ek.
      + destruct v; cbn [rbind]; try discriminate.
        destruct (resample_output c1 tr2) as [c2'|]; cbn [rbind]; [|discriminate]. intros [= <-].
        destruct (IH c2' eq_refl) as [I1 I2]. split.
        * constructor; [|exact I1]. cbn [fst snd]. rewrite Ek. split; reflexivity.
        * intros k' v' [[= <- <-]|H] Hk; [eexists; reflexivity|eauto].
      + cbn [rbind]. destruct (resample_output c1 tr2) as [c2'|]; cbn [rbind]; [|discriminate]. intros [= <-].
        destruct (IH c2' eq_refl) as [I1 I2]. split.
        * constructor; [|exact I1]. cbn [fst snd]. rewrite Ek. split; reflexivity.
        * intros k' v' [[= <- <-]|H] Hk; [|eauto]. apply dget_None in Ek. contradiction.
  Qed.

  Lemma passable_systematic nrm (sd bd rep : pyval (T L)) :
    filter (fun kv => check_passable_kwarg (fst kv) (rs_sig (systematic W nrm)))
      [("sample_dims", sd); ("batch_dim", bd); ("reparameterized", rep)] = [("sample_dims", sd); ("batch_dim", bd)].
  Proof. reflexivity. Qed.

  Lemma as_trace_id (tr : trace L) : wf_dict tr -> as_trace tr = tr.
  Proof.
    unfold as_trace, dmerge. assert (H : forall acc, wf_dict (acc ++ tr) ->
      fold_left (fun a kv => dset (fst kv) (snd kv) a) tr acc = acc ++ tr).
    { induction tr as [|[k v] d IH]; intros acc Hwf; cbn; [rewrite app_nil_r; reflexivity|].
      unfold wf_dict in Hwf. rewrite dkeys_app in Hwf. cbn in Hwf.
      assert (Hni : ~ In k (dkeys acc)).
      { apply NoDup_remove_2 in Hwf. intros Hin. apply Hwf, in_or_app. left; exact Hin. }
      rewrite dset_new by exact Hni. rewrite IH.
      - rewrite <- app_assoc. reflexivity.
      - unfold wf_dict. rewrite !dkeys_app, <- app_assoc. exact Hwf. }
    intros Hwf. apply (H [] Hwf).
  Qed.
  Lemma resampled_keys anc (tr tr' : trace L) : resampled_trace W anc tr tr' -> dkeys tr' = dkeys tr.
  Proof. unfold dkeys. induction 1 as [|[k r] [k' r'] tr tr' [H1 _] _ IH]; [reflexivity|]. cbn in *. congruence. Qed.

  (** a returning Resample: q returned, the resampler returned, the output was updated, the
      store hook ran, in this order *)
  Lemma run_resample_path oid q self_ix l0 rs dbg c kws s ds r s' :
    path (run (L := L) (IResample oid q self_ix l0 rs dbg) c kws s) ds (Ok r, s') ->
    exists ds1 ds2 qo s1 items lw2 c1 c2 st2,
      ds = ds1 ++ ds2 /\
      path (run q c (sub_kwargs self_ix kws) s) ds1 (Ok qo, s1) /\
      path (rs_call rs (out_trace qo) (out_lw qo)
        (filter (fun kv => check_passable_kwarg (fst kv) (rs_sig rs))
           [("sample_dims", kwarg "sample_dims" VNone kws); ("batch_dim", kwarg "batch_dim" VNone kws);
            ("reparameterized", kwarg "reparameterized" (VBool true) kws)])) ds2 (Ok (items, lw2)) /\
      out_output qo = VDict c1 /\ resample_output c1 (as_trace items) = Ok c2 /\
      hook s1 (store s1) (out_trace qo) (as_trace items) = Ok st2 /\
      s' = set_store st2 s1 /\
      out_trace r = as_trace items /\ out_lw r = lw2 /\ out_output r = VDict c2.
  Proof.
    intros H. cbn [run] in H. unfold bind_call in H.
    destruct (clash ["self"; "c"] kws) eqn:Ec.
    { apply path_mbind_inv in H. destruct H as (? & ? & ? & ? & H & _). inversion H. }
    apply path_mbind_inv in H. destruct H as (d0 & b & s0 & d1 & Hb & H & ->).
    apply path_leaf_inv in Hb. destruct Hb as [-> Hb]. injection Hb as Hb <-.
    rewrite (sub_kwargs_eq kws b self_ix) in H by (unfold bind_call; rewrite Ec; exact (f_equal Ok Hb)).
    apply path_mbind_inv in H. destruct H as (ds1 & qo & s1 & d2 & H1 & H & ->).
    apply path_mbind_inv in H. destruct H as (ds2 & [items lw2] & s2 & d3 & H2 & H & ->).
    apply path_tbind in H2. destruct H2 as (ds2' & x & e & H2 & Hx & ->).
    apply path_leaf_inv in Hx. destruct Hx as [-> Hx]. injection Hx as -> <-. rewrite app_nil_r.
    apply path_mbind_inv in H. destruct H as (d4 & c2 & s3 & d5 & H3 & H & ->). cbn [fst snd] in *.
    destruct (out_output qo) as [| | | | | |c1|] eqn:Eo;
      try (apply path_leaf_inv in H3; destruct H3 as [_ H3]; discriminate).
    destruct (resample_output c1 (as_trace items)) as [c2'|] eqn:Er;
      apply path_leaf_inv in H3; destruct H3 as [-> H3]; [|discriminate]. injection H3 as -> <-.
    apply path_mbind_inv in H. destruct H as (d6 & u & s4 & d7 & H4 & H & ->).
    unfold resample_update in H4. destruct (hook s1 (store s1) (out_trace qo) (as_trace items)) as [st2|e] eqn:Eh;
      apply path_leaf_inv in H4; destruct H4 as [-> H4]; [|discriminate]. injection H4 as _ <-.
    apply path_mbind_inv in H. destruct H as (d8 & r1 & s5 & d9 & H5 & H & ->).
    apply path_leaf_inv in H. destruct H as [-> H]. injection H as <- <-.
    destruct (add_loss _ _ _ _) as [r2|] eqn:Ea; apply path_leaf_inv in H5; destruct H5 as [-> H5]; [|discriminate].
    injection H5 as <- <-. apply add_loss_ok in Ea. destruct Ea as (l & _ & ->).
    exists ds1, ds2', qo, s1, items, lw2, c1, c2, st2. rewrite <- Hb in H2.
    split; [cbn; rewrite app_nil_r; reflexivity|].
    split; [exact H1|]. split; [exact H2|]. split; [exact Eo|]. split; [exact Er|].
    split; [exact Eh|]. split; [reflexivity|]. destruct (_ || _); (split; [reflexivity|split; reflexivity]).
  Qed.

  Lemma resample_systematic oid q self_ix l0 nrm dbg c kws s ds r s' :
    wf_dict kws -> wf_st s ->
    path (run (L := L) (IResample oid q self_ix l0 (systematic W nrm) dbg) c kws s) ds (Ok r, s') ->
    exists ds1 v qo s1 c1 c2,
      ds = ds1 ++ [(DrawRand, v)] /\ path (run q c (sub_kwargs self_ix kws) s) ds1 (Ok qo, s1) /\
      resampled_trace W (ancestor (to_arr W (out_lw qo)) (batch_rank kws) (fun b => fin (at_ (to_arr W v) [nth 0 b 0])))
        (out_trace qo) (out_trace r) /\
      out_output qo = VDict c1 /\ out_output r = VDict c2 /\ output_follows (out_trace r) c1 c2.
  Proof.
    intros Hkw Hst H. apply run_resample_path in H.
    destruct H as (ds1 & ds2 & qo & s1 & items & lw2 & c1 & c2 & st2 & -> & Hq & Hr & Eo & Ec & _ & _ & -> & _ & ->).
    rewrite passable_systematic in Hr. cbn [rs_call systematic] in Hr. apply systematic_path in Hr.
    destruct Hr as (_ & _ & _ & v & lw1 & -> & _ & _ & _ & Hr & _).
    assert (Hwf : wf_dict items).
    { unfold wf_dict. rewrite (resampled_keys _ _ _ Hr).
      apply (run_returns_wf q c (sub_kwargs self_ix kws) s qo s1); [apply wf_sub_kwargs, Hkw|exact Hst|].
      apply path_outcome in Hq. exact Hq. }
    rewrite as_trace_id in * by exact Hwf. apply resample_output_ok in Ec.
    exists ds1, v, qo, s1, c1, c2. split; [reflexivity|]. split; [exact Hq|]. split; [exact Hr|].
    split; [exact Eo|]. split; [reflexivity|]. apply Ec.
  Qed.

  (** conversely *)
  Lemma run_resample_intro oid q self_ix l0 rs dbg c kws s ds1 ds2 qo s1 items lw2 c1 c2 st2 :
    clash ["self"; "c"] kws = false ->
    path (run (L := L) q c (sub_kwargs self_ix kws) s) ds1 (Ok qo, s1) ->
    path (rs_call rs (out_trace qo) (out_lw qo)
      (filter (fun kv => check_passable_kwarg (fst kv) (rs_sig rs))
         [("sample_dims", kwarg "sample_dims" VNone kws); ("batch_dim", kwarg "batch_dim" VNone kws);
          ("reparameterized", kwarg "reparameterized" (VBool true) kws)])) ds2 (Ok (items, lw2)) ->
    out_output qo = VDict c1 -> resample_output c1 (as_trace items) = Ok c2 ->
    hook s1 (store s1) (out_trace qo) (as_trace items) = Ok st2 ->
    exists r, path (run (IResample oid q self_ix l0 rs dbg) c kws s) (ds1 ++ ds2) (Ok r, set_store st2 s1) /\
      out_trace r = as_trace items /\ out_lw r = lw2.
  Proof.
    intros Hc Hq Hr Ho Hc2 Hh. cbn [run].
    assert (Hb : bind_call kws = Ok (mkBound (kwarg "sample_dims" VNone kws) (kwarg "batch_dim" VNone kws)
                (kwarg "_debug" (VBool false) kws) (kwarg "reparameterized" (VBool true) kws) (kwarg "ix" VNone kws)
                (filter (fun kv => negb (mem (fst kv) reserved)) kws))) by (unfold bind_call; rewrite Hc; reflexivity).
    set (b := mkBound _ _ _ _ _ _) in Hb. eexists. split.
    { eapply path_bind_pure; [unfold lift; rewrite Hb; reflexivity|]. cbv beta zeta. rewrite (sub_kwargs_eq kws b self_ix Hb).
      eapply path_bind_ok; [exact Hq|]. rewrite <- (app_nil_r ds2).
      apply path_bind_ok with (a := (items, lw2)) (s1 := s1).
      { apply path_tbind. exists ds2, (Ok (items, lw2)), []. rewrite app_nil_r. split; [exact Hr|]. split; [constructor|reflexivity]. }
      cbv beta zeta iota. cbn [fst snd]. rewrite Ho.
      eapply path_bind_pure; [unfold lift; rewrite Hc2; reflexivity|].
      eapply path_bind_pure; [unfold resample_update; rewrite Hh; reflexivity|].
      eapply path_bind_pure; [reflexivity|]. constructor. }
    destruct (_ || _); split; reflexivity.
  Qed.
  (** an output that is not a dict is rejected *)
  Lemma run_resample_not_dict oid q self_ix l0 rs dbg c kws s ds1 ds2 qo s1 items lw2 :
    clash ["self"; "c"] kws = false ->
    path (run (L := L) q c (sub_kwargs self_ix kws) s) ds1 (Ok qo, s1) ->
    path (rs_call rs (out_trace qo) (out_lw qo)
      (filter (fun kv => check_passable_kwarg (fst kv) (rs_sig rs))
         [("sample_dims", kwarg "sample_dims" VNone kws); ("batch_dim", kwarg "batch_dim" VNone kws);
          ("reparameterized", kwarg "reparameterized" (VBool true) kws)])) ds2 (Ok (items, lw2)) ->
    (forall c1, out_output qo <> VDict c1) ->
    path (run (IResample oid q self_ix l0 rs dbg) c kws s) (ds1 ++ ds2) (Err AssertionError, s1).
  Proof.
    intros Hc Hq Hr Ho. cbn [run].
    assert (Hb : bind_call kws = Ok (mkBound (kwarg "sample_dims" VNone kws) (kwarg "batch_dim" VNone kws)
                (kwarg "_debug" (VBool false) kws) (kwarg "reparameterized" (VBool true) kws) (kwarg "ix" VNone kws)
                (filter (fun kv => negb (mem (fst kv) reserved)) kws))) by (unfold bind_call; rewrite Hc; reflexivity).
    set (b := mkBound _ _ _ _ _ _) in Hb.
    eapply path_bind_pure; [unfold lift; rewrite Hb; reflexivity|]. cbv beta zeta. rewrite (sub_kwargs_eq kws b self_ix Hb).
    eapply path_bind_ok; [exact Hq|]. rewrite <- (app_nil_r ds2).
    apply path_bind_ok with (a := (items, lw2)) (s1 := s1).
    { apply path_tbind. exists ds2, (Ok (items, lw2)), []. rewrite app_nil_r. split; [exact Hr|]. split; [constructor|reflexivity]. }
    cbv beta zeta iota. destruct (out_output qo) as [| | | | | |c1|]; try (exfalso; apply (Ho c1); reflexivity); constructor.
  Qed.
End Sys.
