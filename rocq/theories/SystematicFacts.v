(** Real-number facts about systematic resampling and weights. *)
From Coq Require Import Lra Psatz.
From Verif Require Export Resamplers.
Open Scope R_scope.

(** ** Sums *)
Lemma rsum_cons x l : rsum (x :: l) = x + rsum l.
Proof. reflexivity. Qed.
Lemma rsum_nil : rsum [] = 0.
Proof. reflexivity. Qed.
Lemma rsum_app a b : rsum (a ++ b) = rsum a + rsum b.
Proof. induction a as [|x a IH]; [rewrite rsum_nil; cbn [app]; lra|]. cbn [app]. rewrite !rsum_cons, IH. lra. Qed.
Lemma rsum_scale c l : rsum (map (fun x => c * x) l) = c * rsum l.
Proof. induction l as [|x l IH]; cbn [map]; [cbn; lra|]. rewrite !rsum_cons, IH. lra. Qed.
Lemma rsum_ge0 l : (forall x, In x l -> 0 <= x) -> 0 <= rsum l.
Proof. induction l as [|x l IH]; intros H; [cbn; lra|]. rewrite rsum_cons. pose proof (H x (or_introl eq_refl)). assert (0 <= rsum l) by (apply IH; intros y Hy; apply H; right; exact Hy). lra. Qed.
Lemma rsum_ge_elem l x : (forall x, In x l -> 0 <= x) -> In x l -> x <= rsum l.
Proof.
  induction l as [|y l IH]; intros H Hi; [contradiction|]. rewrite rsum_cons.
  assert (0 <= rsum l) by (apply rsum_ge0; intros z Hz; apply H; right; exact Hz).
  pose proof (H y (or_introl eq_refl)). destruct Hi as [->|Hi]; [lra|].
  specialize (IH (fun z Hz => H z (or_intror Hz)) Hi). lra.
Qed.
Lemma rsum_ext {A} (f g : A -> R) l : (forall x, In x l -> f x = g x) -> rsum (map f l) = rsum (map g l).
Proof. induction l as [|x l IH]; intros H; [reflexivity|]. cbn [map]. rewrite !rsum_cons, (H x (or_introl eq_refl)), IH; [reflexivity|]. intros y Hy. apply H. right. exact Hy. Qed.
Lemma rsum_const {A} c (l : list A) : rsum (map (fun _ => c) l) = INR (length l) * c.
Proof. induction l as [|x l IH]; [cbn; lra|]. cbn [map length]. rewrite rsum_cons, IH, S_INR. lra. Qed.
Lemma rsum_le l l' : Forall2 Rle l l' -> rsum l <= rsum l'.
Proof. induction 1; [cbn; lra|]. rewrite !rsum_cons. lra. Qed.
Lemma rsum_plus {A} (f g : A -> R) l : rsum (map (fun x => f x + g x) l) = rsum (map f l) + rsum (map g l).
Proof. induction l as [|x l IH]; [cbn; lra|]. cbn [map]. rewrite !rsum_cons, IH. lra. Qed.

(** ** Exponentials of log-weights *)
Lemma eexp_ge0 x : 0 <= eexp x.
Proof. destruct x; cbn; [lra|]. left. apply exp_pos. Qed.
Lemma eexp_elog r : 0 <= r -> eexp (elog r) = r.
Proof. intros H. unfold elog. destruct (Rlt_dec 0 r) as [Hr|Hr]; cbn; [apply exp_ln, Hr|lra]. Qed.
Lemma elog_eexp x : elog (eexp x) = x.
Proof.
  destruct x as [|r]; cbn; unfold elog.
  - destruct (Rlt_dec 0 0); [lra|reflexivity].
  - destruct (Rlt_dec 0 (exp r)) as [_|H]; [rewrite ln_exp; reflexivity|]. exfalso. apply H, exp_pos.
Qed.
Lemma eexp_shift r x : eexp (eshift r x) = eexp x * exp r.
Proof. destruct x; cbn; [lra|apply exp_plus]. Qed.
Lemma eexps_ge0 l x : In x (map eexp l) -> 0 <= x.
Proof. intros H. apply in_map_iff in H. destruct H as (y & <- & _). apply eexp_ge0. Qed.
(** some particle has a positive weight *)
Definition alive (lw : list ereal) : Prop := exists r, In (Fin r) lw.
Lemma alive_pos lw : alive lw -> 0 < rsum (map eexp lw).
Proof.
  intros [r H]. apply Rlt_le_trans with (exp r); [apply exp_pos|].
  apply rsum_ge_elem; [apply eexps_ge0|]. apply in_map_iff. exists (Fin r). split; [reflexivity|exact H].
Qed.
Lemma softmax_sum lw : alive lw -> rsum (softmax lw) = 1.
Proof.
  intros H. apply alive_pos in H. unfold softmax. set (S := rsum (map eexp lw)) in *.
  rewrite <- (map_map eexp (fun x => x / S)).
  rewrite (rsum_ext _ (fun x => / S * x)) by (intros; unfold Rdiv; ring). rewrite rsum_scale. fold S. field. lra.
Qed.
Lemma softmax_ge0 lw x : alive lw -> In x (softmax lw) -> 0 <= x.
Proof.
  intros H Hi. apply alive_pos in H. apply in_map_iff in Hi. destruct Hi as (y & <- & _).
  apply Rmult_le_pos; [apply eexp_ge0|]. left. apply Rinv_0_lt_compat, H.
Qed.
Lemma softmax_length lw : length (softmax lw) = length lw.
Proof. apply map_length. Qed.

(** ** Cumulative sums *)
(** the sum of the first i entries *)
Definition psum (w : list R) (i : nat) : R := rsum (firstn i w).
Lemma cumsum_from_length acc l : length (cumsum_from acc l) = length l.
Proof. revert acc. induction l as [|x l IH]; intros acc; cbn; [reflexivity|]. rewrite IH. reflexivity. Qed.
Lemma cumsum_from_nth acc l i d : (i < length l)%nat -> nth i (cumsum_from acc l) d = acc + psum l (S i).
Proof.
  revert acc i. induction l as [|x l IH]; intros acc i H; [cbn in H; lia|]. unfold psum. cbn [firstn]. rewrite rsum_cons.
  destruct i as [|i]; cbn [cumsum_from nth]; [cbn; lra|]. rewrite IH by (cbn in H; lia). unfold psum. lra.
Qed.
Lemma cumsum_nth l i d : (i < length l)%nat -> nth i (cumsum l) d = psum l (S i).
Proof. intros H. unfold cumsum. rewrite cumsum_from_nth by exact H. lra. Qed.
Lemma psum_S w i : (i < length w)%nat -> psum w (S i) = psum w i + nth i w 0.
Proof.
  unfold psum. revert i. induction w as [|x w IH]; intros i H; [cbn in H; lia|].
  destruct i as [|i]; [cbn; lra|]. rewrite !firstn_cons. cbn [nth]. rewrite !rsum_cons. rewrite IH by (cbn in H; lia). lra.
Qed.
Lemma psum_all w i : (length w <= i)%nat -> psum w i = rsum w.
Proof. intros H. unfold psum. rewrite firstn_all2 by exact H. reflexivity. Qed.
Lemma nth_ge0 (w : list R) i : (forall x, In x w -> 0 <= x) -> 0 <= nth i w 0.
Proof. intros H. destruct (nth_in_or_default i w 0) as [Hi|E]; [apply H, Hi|rewrite E; lra]. Qed.
Lemma psum_step w i : (forall x, In x w -> 0 <= x) -> psum w i <= psum w (S i).
Proof.
  intros H. destruct (le_lt_dec (length w) i) as [Hl|Hl].
  - rewrite !psum_all by lia. lra.
  - rewrite psum_S by exact Hl. pose proof (nth_ge0 w i H). lra.
Qed.
Lemma psum_mono w i j : (forall x, In x w -> 0 <= x) -> (i <= j)%nat -> psum w i <= psum w j.
Proof. intros H Hij. induction Hij as [|j Hij IH]; [lra|]. pose proof (psum_step w j H). lra. Qed.
Lemma rmax_fold l x : (forall y, In y l -> y <= x \/ True) -> forall m, m = fold_left Rmax l x -> (forall y, In y l -> y <= m) /\ x <= m /\ (m = x \/ In m l).
Proof.
  intros _. revert x. induction l as [|y l IH]; intros x m ->; cbn.
  - split; [tauto|]. split; [lra|left; reflexivity].
  - destruct (IH (Rmax x y) _ eq_refl) as (H1 & H2 & H3). set (m := fold_left Rmax l (Rmax x y)) in *.
    pose proof (Rmax_l x y). pose proof (Rmax_r x y). split; [|split; [lra|]].
    + intros z [<-|Hz]; [lra|apply H1, Hz].
    + destruct H3 as [H3|H3]; [|tauto]. unfold Rmax in H3. destruct (Rle_dec x y); [right; left; congruence|left; exact H3].
Qed.
Lemma rmax_spec l : l <> [] -> (forall y, In y l -> y <= rmax l) /\ In (rmax l) l.
Proof.
  destruct l as [|x l]; [congruence|]. intros _. cbn [rmax].
  destruct (rmax_fold l x (fun _ _ => or_intror I) _ eq_refl) as (H1 & H2 & H3).
  split.
  - intros y [<-|Hy]; [exact H2|apply H1, Hy].
  - destruct H3 as [H3|H3]; [left; symmetry; exact H3|right; exact H3].
Qed.
Lemma rmax_cumsum w : w <> [] -> (forall x, In x w -> 0 <= x) -> rmax (cumsum w) = rsum w.
Proof.
  intros Hn H. assert (Hl : (0 < length w)%nat) by (destruct w; [congruence|cbn; lia]).
  assert (Hc : length (cumsum w) = length w) by apply cumsum_from_length.
  destruct (rmax_spec (cumsum w)) as [H1 H2]; [intros E; rewrite E in Hc; cbn in Hc; lia|].
  apply Rle_antisym.
  - apply (In_nth _ _ 0) in H2. destruct H2 as (i & Hi & <-). rewrite cumsum_nth by lia.
    rewrite <- (psum_all w (length w)) by lia. apply psum_mono; [exact H|lia].
  - assert (E : rsum w = nth (length w - 1) (cumsum w) 0).
    { rewrite cumsum_nth by lia. rewrite psum_all by lia. reflexivity. }
    rewrite E. apply H1. apply nth_In. lia.
Qed.

(** ** searchsorted *)
Lemma lower_bound_le l v : (lower_bound l v <= length l)%nat.
Proof. induction l as [|x l IH]; cbn; [lia|]. destruct (Rlt_dec x v); lia. Qed.
Lemma lower_bound_lt l v j : (j < lower_bound l v)%nat -> nth j l 0 < v.
Proof.
  revert j. induction l as [|x l IH]; intros j H; cbn in H; [lia|]. destruct (Rlt_dec x v) as [Hx|Hx]; [|lia].
  destruct j as [|j]; [exact Hx|]. apply IH. lia.
Qed.
Lemma lower_bound_ge l v : (lower_bound l v < length l)%nat -> v <= nth (lower_bound l v) l 0.
Proof.
  induction l as [|x l IH]; intros H; cbn in *; [lia|]. destruct (Rlt_dec x v) as [Hx|Hx]; [apply IH; lia|lra].
Qed.

(** ** The index chosen for a point *)
(** cumulative normalised weights *)
Definition ncs (w : list R) : list R := map (fun x => x / rmax (cumsum w)) (cumsum w).
Section OneColumn.
  Context (w : list R) (Hw : forall x, In x w -> 0 <= x) (Hs : rsum w = 1).
  Notation n := (length w).
  Let Hn : w <> [].
  Proof. intros ->. cbn in Hs. lra. Qed.

  Lemma ncs_length : length (ncs w) = n.
  Proof. unfold ncs. rewrite map_length. apply cumsum_from_length. Qed.
  Lemma ncs_nth i : (i < n)%nat -> nth i (ncs w) 0 = psum w (S i).
  Proof.
    intros H. unfold ncs. rewrite rmax_cumsum by assumption. rewrite Hs.
    rewrite (nth_indep _ 0 (0 / 1)) by (rewrite map_length; unfold cumsum; rewrite cumsum_from_length; exact H).
    rewrite (map_nth (fun x => x / 1)). rewrite cumsum_nth by exact H. field.
  Qed.
  (** the index is below i exactly when the point is at most the i-th partial sum *)
  Lemma lb_below v i : (1 <= i <= n)%nat -> ((lower_bound (ncs w) v < i)%nat <-> v <= psum w i).
  Proof.
    intros Hi. split.
    - intros H. apply Rle_trans with (nth (lower_bound (ncs w) v) (ncs w) 0).
      + apply lower_bound_ge. rewrite ncs_length. lia.
      + rewrite ncs_nth by lia. apply psum_mono; [exact Hw|lia].
    - intros H. destruct (le_lt_dec i (lower_bound (ncs w) v)) as [Hl|Hl]; [|exact Hl].
      assert (Hlt : nth (i - 1) (ncs w) 0 < v) by (apply lower_bound_lt; lia).
      rewrite ncs_nth in Hlt by lia. replace (S (i - 1)) with i in Hlt by lia. lra.
  Qed.
  Lemma lb_range v : v <= 1 -> (lower_bound (ncs w) v < n)%nat.
  Proof.
    intros H. apply lb_below; [destruct w; [congruence|cbn; lia]|]. rewrite psum_all by lia. rewrite Hs. exact H.
  Qed.
  Lemma lb_mono v v' : v <= v' -> (lower_bound (ncs w) v <= lower_bound (ncs w) v')%nat.
  Proof.
    intros H. generalize (ncs w). induction l as [|x l IH]; cbn; [lia|].
    destruct (Rlt_dec x v), (Rlt_dec x v'); try lia. lra.
  Qed.
End OneColumn.

(** ** Counting *)
(** the number of k < n with k <= x *)
Definition kcount (n : nat) (x : R) : nat := length (filter (fun k => if Rle_dec (INR k) x then true else false) (seq 0 n)).
Lemma filter_seq_prefix (P : nat -> bool) n m :
  (m <= n)%nat -> (forall k, (k < n)%nat -> (P k = true <-> (k < m)%nat)) -> length (filter P (seq 0 n)) = m.
Proof.
  intros Hm HP. replace n with (m + (n - m))%nat by lia. rewrite seq_app, filter_app, app_length.
  assert (E1 : filter P (seq 0 m) = seq 0 m).
  { assert (G : forall l, (forall k, In k l -> P k = true) -> filter P l = l).
    { induction l as [|x l IH]; intros H; [reflexivity|]. cbn. rewrite (H x (or_introl eq_refl)). f_equal. apply IH. intros k Hk. apply H. right. exact Hk. }
    apply G. intros k Hk. apply in_seq in Hk. apply HP; lia. }
  assert (E2 : filter P (seq (0 + m) (n - m)) = []).
  { assert (G : forall l, (forall k, In k l -> P k = false) -> filter P l = []).
    { induction l as [|x l IH]; intros H; [reflexivity|]. cbn. rewrite (H x (or_introl eq_refl)). apply IH. intros k Hk. apply H. right. exact Hk. }
    apply G. intros k Hk. apply in_seq in Hk. destruct (P k) eqn:E; [|reflexivity]. apply HP in E; lia. }
  rewrite E1, E2, seq_length. cbn. lia.
Qed.
Lemma up_spec x z : (IZR z > x /\ IZR z <= x + 1) <-> z = up x.
Proof.
  split.
  - intros [H1 H2]. apply tech_up; assumption.
  - intros ->. destruct (archimed x) as [H1 H2]. lra.
Qed.
Lemma le_up k x : INR k <= x <-> (Z.of_nat k < up x)%Z.
Proof.
  destruct (archimed x) as [H1 H2]. rewrite INR_IZR_INZ. split; intros H.
  - apply lt_IZR. lra.
  - assert (IZR (Z.of_nat k) <= IZR (up x - 1)) by (apply IZR_le; lia). rewrite minus_IZR in *. lra.
Qed.
Lemma kcount_up n x : -1 <= x -> x < INR n -> Z.of_nat (kcount n x) = up x.
Proof.
  intros H0 H. destruct (archimed x) as [H1 H2].
  assert (Hu : (0 <= up x)%Z) by (assert (-1 < up x)%Z by (apply lt_IZR; lra); lia).
  assert (Hn : (up x <= Z.of_nat n)%Z).
  { rewrite INR_IZR_INZ in H. assert (up x - 1 < Z.of_nat n)%Z; [|lia]. apply lt_IZR. rewrite minus_IZR. lra. }
  unfold kcount. rewrite (filter_seq_prefix _ n (Z.to_nat (up x))); [lia|lia|].
  intros k Hk. destruct (Rle_dec (INR k) x) as [Hx|Hx].
  - apply le_up in Hx. split; [intros _; lia|reflexivity].
  - split; [discriminate|]. intros Hlt. exfalso. apply Hx. apply le_up. lia.
Qed.
(** in general it is within one *)
Lemma kcount_bounds n x : -1 <= x -> x <= INR n -> x <= INR (kcount n x) /\ INR (kcount n x) <= x + 1.
Proof.
  intros H0 H. destruct (Rle_lt_or_eq_dec _ _ H) as [Hlt|E].
  - pose proof (kcount_up n x H0 Hlt) as Hk. rewrite INR_IZR_INZ, Hk. destruct (archimed x). lra.
  - assert (Ek : kcount n x = n).
    { unfold kcount. apply filter_seq_prefix; [lia|]. intros k Hk.
      destruct (Rle_dec (INR k) x) as [Hx|Hx]; [tauto|]. exfalso. apply Hx. rewrite E. apply le_INR. lia. }
    rewrite Ek. lra.
Qed.

(** ** Offspring *)
Definition offspring (aidx : list nat) (i : nat) : nat := length (filter (Nat.eqb i) aidx).
Lemma offspring_split (l : list nat) i :
  (length (filter (fun k => Nat.ltb k (S i)) l) = length (filter (fun k => Nat.ltb k i) l) + offspring l i)%nat.
Proof.
  unfold offspring. induction l as [|x l IH]; [reflexivity|]. cbn [filter].
  destruct (Nat.ltb_spec x (S i)), (Nat.ltb_spec x i), (Nat.eqb_spec i x); cbn [length]; lia.
Qed.
Lemma filter_map {A B} (f : A -> B) (P : B -> bool) l : filter P (map f l) = map f (filter (fun x => P (f x)) l).
Proof. induction l as [|x l IH]; [reflexivity|]. cbn. destruct (P (f x)); cbn; rewrite IH; reflexivity. Qed.

Section Ancestors.
  Context (lw : list ereal) (Ha : alive lw) (u : R) (Hu : 0 <= u < 1).
  Notation n := (length lw).
  Notation w := (softmax lw).
  Let Hw : forall x, In x w -> 0 <= x.
  Proof. intros x. apply softmax_ge0, Ha. Qed.
  Let Hs : rsum w = 1.
  Proof. apply softmax_sum, Ha. Qed.
  Let Hn : (0 < n)%nat.
  Proof. destruct Ha as [r H]. destruct lw; [contradiction|cbn; lia]. Qed.
  Let HnR : 0 < INR n.
  Proof. apply lt_0_INR, Hn. Qed.

  Lemma ancestors_unfold : ancestors_of lw u = map (fun k => lower_bound (ncs w) ((INR k + u) / INR n)) (seq 0 n).
  Proof. unfold ancestors_of, usteps. rewrite map_map. reflexivity. Qed.
  Lemma ancestors_length : length (ancestors_of lw u) = n.
  Proof. rewrite ancestors_unfold, map_length, seq_length. reflexivity. Qed.
  Lemma ancestors_nth k : (k < n)%nat -> nth k (ancestors_of lw u) 0%nat = lower_bound (ncs w) ((INR k + u) / INR n).
  Proof.
    intros H. rewrite ancestors_unfold.
    rewrite (nth_indep _ 0%nat (lower_bound (ncs w) ((INR 0 + u) / INR n))) by (rewrite map_length, seq_length; exact H).
    rewrite (map_nth (fun k => lower_bound (ncs w) ((INR k + u) / INR n))). rewrite seq_nth by exact H. reflexivity.
  Qed.
  Lemma step_lt1 k : (k < n)%nat -> (INR k + u) / INR n <= 1.
  Proof.
    intros H. assert (INR k + 1 <= INR n) by (rewrite <- S_INR; apply le_INR; lia).
    apply Rmult_le_reg_r with (INR n); [exact HnR|]. unfold Rdiv. rewrite Rmult_assoc, Rinv_l by lra. lra.
  Qed.

  Lemma ancestors_range i : In i (ancestors_of lw u) -> (i < n)%nat.
  Proof.
    rewrite ancestors_unfold. intros H. apply in_map_iff in H. destruct H as (k & <- & Hk). apply in_seq in Hk.
    pose proof (lb_range w Hw Hs ((INR k + u) / INR n) (step_lt1 k ltac:(lia))) as H. rewrite softmax_length in H. exact H.
  Qed.
  Lemma ancestors_sorted k k' : (k <= k')%nat -> (k' < n)%nat -> (nth k (ancestors_of lw u) 0 <= nth k' (ancestors_of lw u) 0)%nat.
  Proof.
    intros H1 H2. rewrite !ancestors_nth by lia. apply lb_mono.
    apply Rmult_le_compat_r; [left; apply Rinv_0_lt_compat, HnR|]. apply le_INR in H1. lra.
  Qed.

  (** the number of ancestors below i *)
  Lemma below_count i : (1 <= i <= n)%nat ->
    length (filter (fun k => Nat.ltb k i) (ancestors_of lw u)) = kcount n (INR n * psum w i - u).
  Proof.
    intros Hi. rewrite ancestors_unfold, filter_map, map_length. unfold kcount. f_equal. apply filter_ext_in.
    intros k Hk. apply in_seq in Hk.
    pose proof (lb_below w Hw Hs ((INR k + u) / INR n) i) as HL. rewrite softmax_length in HL. specialize (HL Hi).
    assert (E : (INR k + u) / INR n <= psum w i <-> INR k <= INR n * psum w i - u).
    { split; intros H.
      - apply Rmult_le_compat_r with (r := INR n) in H; [|lra]. unfold Rdiv in H. rewrite Rmult_assoc, Rinv_l in H by lra. lra.
      - apply Rmult_le_reg_r with (INR n); [exact HnR|]. unfold Rdiv. rewrite Rmult_assoc, Rinv_l by lra. lra. }
    destruct (Nat.ltb_spec (lower_bound (ncs w) ((INR k + u) / INR n)) i) as [H|H];
      destruct (Rle_dec (INR k) (INR n * psum w i - u)) as [Hx|Hx]; try reflexivity.
    - exfalso. apply Hx, E, HL, H.
    - apply E, HL in Hx. lia.
  Qed.
  Lemma psum_range i : 0 <= psum w i <= 1.
  Proof.
    split.
    - change 0 with (psum w 0). apply psum_mono; [exact Hw|lia].
    - rewrite <- Hs. rewrite <- (psum_all w (i + n)) by (rewrite softmax_length; lia). apply psum_mono; [exact Hw|lia].
  Qed.
  (** the number of ancestors below i, as a real *)
  Let G (i : nat) : nat := length (filter (fun k => Nat.ltb k i) (ancestors_of lw u)).
  Lemma G_bounds i : (i <= n)%nat -> INR n * psum w i - u <= INR (G i) <= INR n * psum w i - u + 1.
  Proof.
    intros Hi. destruct (Nat.eq_dec i 0) as [->|H0].
    - assert (E : G 0 = 0%nat). { unfold G. induction (ancestors_of lw u) as [|x l IH]; [reflexivity|exact IH]. }
      rewrite E. change (psum w 0) with 0. cbn [INR]. lra.
    - unfold G. rewrite below_count by lia. pose proof (psum_range i) as Hp. apply kcount_bounds.
      + assert (0 <= INR n * psum w i) by (apply Rmult_le_pos; lra). lra.
      + assert (INR n * psum w i <= INR n * 1) by (apply Rmult_le_compat_l; lra). lra.
  Qed.
  Lemma G_up i : (i <= n)%nat -> 0 < u -> Z.of_nat (G i) = up (INR n * psum w i - u).
  Proof.
    intros Hi Hu0. destruct (Nat.eq_dec i 0) as [->|H0].
    - assert (E : G 0 = 0%nat). { unfold G. induction (ancestors_of lw u) as [|x l IH]; [reflexivity|exact IH]. }
      rewrite E. change (psum w 0) with 0. apply up_spec. cbn [Z.of_nat]. lra.
    - unfold G. rewrite below_count by lia. pose proof (psum_range i) as Hp. apply kcount_up.
      + assert (0 <= INR n * psum w i) by (apply Rmult_le_pos; lra). lra.
      + assert (INR n * psum w i <= INR n * 1) by (apply Rmult_le_compat_l; lra). lra.
  Qed.
  Lemma offspring_G i : (offspring (ancestors_of lw u) i = G (S i) - G i)%nat /\ (G i <= G (S i))%nat.
  Proof. pose proof (offspring_split (ancestors_of lw u) i) as H. fold (G (S i)) in H. fold (G i) in H. lia. Qed.

  (** within one of the expected number, for every offset *)
  Lemma offspring_within i : (i < n)%nat ->
    -1 <= INR (offspring (ancestors_of lw u) i) - INR n * nth i w 0 <= 1.
  Proof.
    intros Hi. destruct (offspring_G i) as [-> Hle]. rewrite minus_INR by exact Hle.
    pose proof (G_bounds i ltac:(lia)). pose proof (G_bounds (S i) ltac:(lia)).
    rewrite psum_S in * by (rewrite softmax_length; exact Hi).
    rewrite Rmult_plus_distr_l in *. lra.
  Qed.
  Lemma offspring_up i : (i < n)%nat -> 0 < u ->
    Z.of_nat (offspring (ancestors_of lw u) i) = (up (INR n * psum w (S i) - u)%R - up (INR n * psum w i - u)%R)%Z.
  Proof.
    intros Hi Hu0. destruct (offspring_G i) as [-> Hle].
    rewrite <- (G_up i), <- (G_up (S i)) by (assumption || lia). lia.
  Qed.
  (** strictly within one, except for the offset 0 *)
  Lemma offspring_strict i : (i < n)%nat -> 0 < u ->
    -1 < INR (offspring (ancestors_of lw u) i) - INR n * nth i w 0 < 1.
  Proof.
    intros Hi Hu0. rewrite INR_IZR_INZ, offspring_up by assumption. rewrite minus_IZR.
    rewrite psum_S by (rewrite softmax_length; exact Hi).
    destruct (archimed (INR n * psum w i - u)). destruct (archimed (INR n * (psum w i + nth i w 0) - u)).
    rewrite Rmult_plus_distr_l in *. lra.
  Qed.
  Lemma offspring_floor_ceil i : (i < n)%nat -> 0 < u ->
    Z.of_nat (offspring (ancestors_of lw u) i) = Int_part (INR n * nth i w 0) \/
    Z.of_nat (offspring (ancestors_of lw u) i) = (- Int_part (- (INR n * nth i w 0))%R)%Z.
  Proof.
    intros Hi Hu0. pose proof (offspring_strict i Hi Hu0) as H. rewrite INR_IZR_INZ in H.
    set (c := Z.of_nat (offspring (ancestors_of lw u) i)) in *. set (y := INR n * nth i w 0) in *.
    unfold Int_part.
    destruct (archimed y) as [A1 A2]. destruct (archimed (- y)) as [B1 B2].
    destruct (Rle_dec (IZR c) y) as [Hc|Hc].
    - left. assert (E : (c + 1)%Z = up y) by (apply up_spec; rewrite plus_IZR; lra). lia.
    - right. assert (E : (- c + 1)%Z = up (- y)) by (apply up_spec; rewrite plus_IZR, opp_IZR; lra). lia.
  Qed.
  (** a particle of weight zero is chosen only as particle 0, for the offset 0 *)
  Lemma weightless_dies i : (i < n)%nat -> nth i w 0 = 0 -> (i <> 0%nat \/ 0 < u) -> ~ In i (ancestors_of lw u).
  Proof.
    intros Hi H0 Hor Hin. rewrite ancestors_unfold in Hin. apply in_map_iff in Hin. destruct Hin as (k & E & Hk). apply in_seq in Hk.
    set (v := (INR k + u) / INR n) in *.
    assert (H1 : v <= psum w (S i)).
    { apply (lb_below w Hw Hs); [rewrite softmax_length; lia|lia]. }
    rewrite psum_S in H1 by (rewrite softmax_length; exact Hi). rewrite H0 in H1.
    destruct (Nat.eq_dec i 0) as [->|Hi0].
    - change (psum w 0) with 0 in H1. destruct Hor as [Hor|Hor]; [congruence|].
      assert (0 < v); [|lra]. unfold v. apply Rdiv_lt_0_compat; [|exact HnR]. pose proof (pos_INR k). lra.
    - assert (H2 : v <= psum w i) by lra. apply (lb_below w Hw Hs) in H2; [|rewrite softmax_length; lia]. lia.
  Qed.
End Ancestors.
