(** Facts about the floating-point model of systematic resampling. *)
From Coq Require Import Lra Psatz Permutation.
From Flocq Require Import Core Relative Plus_error.
From Verif Require Export SpecFloats SystematicFacts.
Open Scope R_scope.

(** ** Rounding *)
Definition eps : R := / 16777216.
Definition tiny : R := / IZR (2 ^ 150).
Lemma pow2 e : bpow radix2 (Zneg e) = / IZR (2 ^ Zpos e).
Proof. reflexivity. Qed.
Global Instance P24 : Prec_gt_0 24. Proof. reflexivity. Qed.
Global Instance P53 : Prec_gt_0 53. Proof. reflexivity. Qed.
Lemma r32_mono x y : x <= y -> r32 x <= r32 y.
Proof. apply round_le; auto with typeclass_instances. Qed.
Lemma r32_id x : f32 x -> r32 x = x.
Proof. apply round_generic; auto with typeclass_instances. Qed.
Lemma r64_mono x y : x <= y -> r64 x <= r64 y.
Proof. apply round_le; auto with typeclass_instances. Qed.
Lemma r64_id x : f64 x -> r64 x = x.
Proof. apply round_generic; auto with typeclass_instances. Qed.
Lemma f32_r32 x : f32 (r32 x).
Proof. apply generic_format_round; auto with typeclass_instances. Qed.
Lemma f64_r64 x : f64 (r64 x).
Proof. apply generic_format_round; auto with typeclass_instances. Qed.
Lemma f64_f32 x : f32 x -> f64 x.
Proof. apply generic_inclusion_mag. intros _. unfold FLT_exp. lia. Qed.
Lemma f32_0 : f32 0.
Proof. apply generic_format_0. Qed.
Lemma f32_bpow e : (-149 <= e)%Z -> f32 (bpow radix2 e).
Proof. intros H. apply generic_format_FLT_bpow; [reflexivity|exact H]. Qed.
Lemma f32_int z : (0 <= z <= 2 ^ 24)%Z -> f32 (IZR z).
Proof.
  intros H. destruct (Z.eq_dec z (2 ^ 24)) as [->|Hz].
  - change (IZR (2 ^ 24)) with (bpow radix2 24). apply f32_bpow. lia.
  - apply generic_format_FLT. exists (Float radix2 z 0); unfold F2R; cbn [Fnum Fexp bpow]; [lra| |lia]. change (radix_val radix2) with 2%Z. lia.
Qed.
Definition small (n : nat) : Prop := (Z.of_nat n <= 2 ^ 24)%Z.
Lemma f32_INR n : small n -> f32 (INR n).
Proof. intros H. rewrite INR_IZR_INZ. apply f32_int. unfold small in H. lia. Qed.
Lemma r32_0 : r32 0 = 0.
Proof. apply r32_id, f32_0. Qed.
Lemma r32_1 : r32 1 = 1.
Proof. apply r32_id, (f32_int 1). lia. Qed.
Lemma r32_ge0 x : 0 <= x -> 0 <= r32 x.
Proof. intros H. rewrite <- r32_0. apply r32_mono, H. Qed.
Lemma r64_0 : r64 0 = 0.
Proof. apply r64_id, f64_f32, f32_0. Qed.
Lemma r64_ge0 x : 0 <= x -> 0 <= r64 x.
Proof. intros H. rewrite <- r64_0. apply r64_mono, H. Qed.
Lemma r32_err x : 0 <= x -> x - (eps * x + tiny) <= r32 x <= x + (eps * x + tiny).
Proof.
  intros Hx. destruct (relative_error_N_FLT'_ex radix2 (-149) 24 P24 (fun x => negb (Z.even x)) x) as (d & e & Hd & He & _ & E).
  unfold r32. change ZnearestE with (Znearest (fun x => negb (Z.even x))). rewrite E. clear E.
  assert (H1 : u_ro radix2 24 = eps) by (change (u_ro radix2 24) with (/ 2 * bpow radix2 (Zneg 23)); unfold eps; rewrite pow2; cbn [Z.pow Z.pow_pos Pos.iter Z.mul Pos.mul]; lra).
  assert (H2 : / 2 * bpow radix2 (Zneg 149) = tiny).
  { unfold tiny. rewrite pow2. change (2 ^ 150)%Z with (2 * 2 ^ 149)%Z. rewrite mult_IZR. rewrite Rinv_mult. reflexivity. }
  rewrite H2 in He. rewrite H1 in Hd. assert (H3 : eps / (1 + eps) <= eps).
  { unfold eps. lra. }
  assert (Hd' : Rabs d <= eps) by lra. clear Hd H3. apply Rabs_le_inv in Hd'. apply Rabs_le_inv in He.
  assert (-eps * x <= d * x <= eps * x) by (split; apply Rmult_le_compat_r; lra). lra.
Qed.
Lemma r32_err_neg x : x <= 0 -> x + eps * x - tiny <= r32 x <= x - eps * x + tiny.
Proof.
  intros Hx. assert (E : r32 x = - r32 (- x)).
  { unfold r32. rewrite round_NE_opp. lra. }
  rewrite E. pose proof (r32_err (- x) ltac:(lra)). lra.
Qed.
Definition eps64 : R := / IZR (2 ^ 53).
Lemma r64_err x y : f64 x -> f64 y -> 0 <= x + y -> (x + y) * (1 - eps64) <= r64 (x + y) <= (x + y) * (1 + eps64).
Proof.
  intros Hx Hy H0. destruct (FLT_plus_error_N_ex radix2 (-1074) 53 (fun x => negb (Z.even x)) x y Hx Hy) as (d & Hd & E).
  unfold r64. change ZnearestE with (Znearest (fun x => negb (Z.even x))). rewrite E. clear E.
  assert (H1 : u_ro radix2 53 = eps64).
  { change (u_ro radix2 53) with (/ 2 * bpow radix2 (Zneg 52)). unfold eps64. rewrite pow2. change (2 ^ 53)%Z with (2 * 2 ^ 52)%Z. rewrite mult_IZR, Rinv_mult. reflexivity. }
  rewrite H1 in Hd. assert (H3 : eps64 / (1 + eps64) <= eps64) by (unfold eps64; cbn [Z.pow Z.pow_pos Pos.iter Z.mul Pos.mul]; lra).
  assert (Hd' : Rabs d <= eps64) by lra. apply Rabs_le_inv in Hd'. split; apply Rmult_le_compat_l; lra.
Qed.

(** ** Sums *)
Lemma summed_bounds l s : summed l s -> (forall x, In x l -> 0 <= x <= 1) -> small (length l) -> 0 <= s <= INR (length l).
Proof.
  induction 1 as [x|l l1 l2 a b Hp H1 IH1 H2 IH2]; intros H Hn.
  - specialize (H x (or_introl eq_refl)). cbn. lra.
  - assert (El : length l = (length l1 + length l2)%nat) by (rewrite (Permutation_length Hp), app_length; reflexivity).
    destruct IH1 as [A1 A2]; [intros x Hx; apply H, (Permutation_in _ (Permutation_sym Hp)), in_or_app; auto|unfold small in *; lia|].
    destruct IH2 as [B1 B2]; [intros x Hx; apply H, (Permutation_in _ (Permutation_sym Hp)), in_or_app; auto|unfold small in *; lia|].
    split; [apply r32_ge0; lra|]. rewrite <- (r32_id (INR (length l))) by (apply f32_INR, Hn). apply r32_mono. rewrite El, plus_INR. lra.
Qed.
Lemma summed_ge1 l s : summed l s -> (forall x, In x l -> 0 <= x <= 1) -> small (length l) -> In 1 l -> 1 <= s.
Proof.
  induction 1 as [x|l l1 l2 a b Hp H1 IH1 H2 IH2]; intros H Hn Hi.
  - destruct Hi as [->|[]]. lra.
  - assert (El : length l = (length l1 + length l2)%nat) by (rewrite (Permutation_length Hp), app_length; reflexivity).
    assert (Q1 : forall x, In x l1 -> 0 <= x <= 1) by (intros x Hx; apply H, (Permutation_in _ (Permutation_sym Hp)), in_or_app; auto).
    assert (Q2 : forall x, In x l2 -> 0 <= x <= 1) by (intros x Hx; apply H, (Permutation_in _ (Permutation_sym Hp)), in_or_app; auto).
    pose proof (summed_bounds l1 a H1 Q1 ltac:(unfold small in *; lia)). pose proof (summed_bounds l2 b H2 Q2 ltac:(unfold small in *; lia)).
    rewrite <- r32_1. apply r32_mono. apply (Permutation_in _ Hp), in_app_or in Hi. destruct Hi as [Hi|Hi].
    + specialize (IH1 Q1 ltac:(unfold small in *; lia) Hi). lra.
    + specialize (IH2 Q2 ltac:(unfold small in *; lia) Hi). lra.
Qed.

(** ** The exponential *)
Lemma exp_nat n : exp (INR n) = exp 1 ^ n.
Proof. induction n as [|n IH]; [apply exp_0|]. rewrite S_INR, exp_plus, IH. cbn. ring. Qed.
Lemma exp_small x : x <= -128 -> exp x <= / IZR (2 ^ 128).
Proof.
  intros H. apply Rle_trans with (exp (- INR 128)).
  - destruct (Rle_lt_or_eq_dec _ _ H) as [Hl| ->]; [left; apply exp_increasing; rewrite INR_IZR_INZ; cbn [Z.of_nat]; exact Hl|right; f_equal; rewrite INR_IZR_INZ; reflexivity].
  - rewrite exp_Ropp. apply Rinv_le; [apply IZR_lt; reflexivity|]. rewrite exp_nat. pose proof (exp_ineq1 1 ltac:(lra)).
    replace (IZR (2 ^ 128)) with (2 ^ 128)%R by (apply (pow_IZR 2 128)).
    apply pow_incr. lra.
Qed.
(** an error [t] in the argument *)
Lemma exp_shift d t b : Rabs (t - d) <= b -> b <= / 1000 -> exp d * (1 - b) <= exp t <= exp d * (1 + b + 2 * (b * b)).
Proof.
  intros Ht Hb. apply Rabs_le_inv in Ht. replace t with (d + (t - d)) by ring. set (h := t - d) in *. rewrite exp_plus.
  pose proof (exp_pos d). assert (exp h >= 1 + h).
  { destruct (Req_dec h 0) as [E|E]; [rewrite E, exp_0; lra|left; apply exp_ineq1, E]. }
  assert (exp h <= 1 + b + 2 * (b * b)).
  { assert (Hm : exp (- h) >= 1 - b). { destruct (Req_dec (- h) 0) as [E|E]; [rewrite E, exp_0; lra|pose proof (exp_ineq1 (- h) E); lra]. }
    assert (E : exp h = / exp (- h)) by (rewrite exp_Ropp, Rinv_inv; reflexivity). rewrite E.
    apply Rle_trans with (/ (1 - b)); [apply Rinv_le; lra|]. apply Rmult_le_reg_l with (1 - b); [lra|]. rewrite Rinv_r by lra.
    assert (0 <= b) by lra. assert (0 <= b * b) by nra. assert (b * (b * b) <= / 1000 * (b * b)) by (apply Rmult_le_compat_r; lra). lra. }
  split; apply Rmult_le_compat_l; lra.
Qed.

Lemma near_exp fexp d : accurate_exp fexp -> d <= 0 ->
  exp d - (133 * eps * exp d + / IZR (2 ^ 125)) <= fexp (r32 d) <= exp d + (133 * eps * exp d + / IZR (2 ^ 125)).
Proof.
  intros HE Hd. assert (Hr : r32 d <= 0) by (rewrite <- r32_0; apply r32_mono, Hd).
  pose proof (ae_close fexp HE (r32 d) Hr) as Hc. apply Rabs_le_inv in Hc.
  assert (E22 : (2 ^ 22)%R = 4194304) by (rewrite (pow_IZR 2 22); reflexivity).
  assert (E126 : (2 ^ 126)%R = IZR (2 ^ 126)) by apply (pow_IZR 2 126).
  rewrite E22, E126 in Hc. clear E22 E126. pose proof (exp_pos d) as Hp. pose proof (exp_pos (r32 d)) as Hp2.
  assert (Hi : 2 * / IZR (2 ^ 128) + / IZR (2 ^ 126) <= / IZR (2 ^ 125)) by (cbn [Z.pow Z.pow_pos Pos.iter Z.mul Pos.mul]; lra).
  assert (Hi0 : 0 < / IZR (2 ^ 126)) by (apply Rinv_0_lt_compat, IZR_lt; reflexivity).
  assert (Hi1 : 2 * / IZR (2 ^ 128) <= / IZR (2 ^ 126)) by (cbn [Z.pow Z.pow_pos Pos.iter Z.mul Pos.mul]; lra).
  set (i126 := / IZR (2 ^ 126)) in *. set (i125 := / IZR (2 ^ 125)) in *.
  destruct (Rle_lt_dec d (-128)) as [Hs|Hs].
  - assert (Hr2 : r32 d <= -128).
    { replace (-128) with (r32 (-128)); [apply r32_mono, Hs|]. apply r32_id. replace (-128) with (- bpow radix2 7) by (cbn; lra). apply generic_format_opp, f32_bpow. lia. }
    pose proof (exp_small _ Hs). pose proof (exp_small _ Hr2). set (i128 := / IZR (2 ^ 128)) in *. unfold eps. lra.
  - pose proof (r32_err_neg d Hd) as Hn.
    assert (Ht : 0 < tiny <= / IZR (2 ^ 40)).
    { unfold tiny. split; [apply Rinv_0_lt_compat, IZR_lt; reflexivity|]. apply Rinv_le; [apply IZR_lt; reflexivity|apply IZR_le; discriminate]. }
    assert (Hb : Rabs (r32 d - d) <= 128 * eps + tiny) by (apply Rabs_le; unfold eps in *; lra).
    set (b := 128 * eps + tiny) in *. assert (Hb2 : 0 <= b <= 128.001 * eps).
    { unfold b, eps in *. cbn [Z.pow Z.pow_pos Pos.iter Z.mul Pos.mul] in Ht. lra. }
    destruct (exp_shift d (r32 d) b Hb) as [X1 X2]; [unfold eps in Hb2; lra|].
    assert (b * b <= 128.001 * eps * (128.001 * eps)) by (apply Rmult_le_compat; lra).
    assert (X3 : exp d * (1 - 128.01 * eps) <= exp (r32 d)) by (eapply Rle_trans; [|exact X1]; apply Rmult_le_compat_l; unfold eps in *; lra).
    assert (X4 : exp (r32 d) <= exp d * (1 + 128.01 * eps)) by (eapply Rle_trans; [exact X2|]; apply Rmult_le_compat_l; unfold eps in *; lra).
    unfold eps in *. lra.
Qed.

(** ** Partial sums *)
Definition accs (w : list R) (i : nat) : R := fold_left (fun a x => r64 (a + x)) (firstn i w) 0.
Lemma cumsum32_from_length acc l : length (cumsum32_from acc l) = length l.
Proof. revert acc. induction l as [|x l IH]; intros acc; cbn; [reflexivity|]. rewrite IH. reflexivity. Qed.
Lemma cumsum32_from_nth acc l i d : (i < length l)%nat -> nth i (cumsum32_from acc l) d = r32 (fold_left (fun a x => r64 (a + x)) (firstn (S i) l) acc).
Proof.
  revert acc i. induction l as [|x l IH]; intros acc i H; [cbn in H; lia|]. destruct i as [|i]; [reflexivity|].
  cbn [cumsum32_from nth]. rewrite IH by (cbn in H; lia). reflexivity.
Qed.
Lemma accs_S w i : (i < length w)%nat -> accs w (S i) = r64 (accs w i + nth i w 0).
Proof.
  unfold accs. intros H. assert (E : firstn (S i) w = firstn i w ++ [nth i w 0]).
  { revert i H. induction w as [|x w IH]; intros i H; [cbn in H; lia|]. destruct i as [|i]; [reflexivity|]. rewrite !firstn_cons, (IH i) by (cbn in H; lia). reflexivity. }
  rewrite E, fold_left_app. reflexivity.
Qed.
Lemma accs_all w i : (length w <= i)%nat -> accs w i = accs w (length w).
Proof. intros H. unfold accs. rewrite !firstn_all2 by lia. reflexivity. Qed.
Section Partial.
  Context (w : list R) (Hw : forall x, In x w -> 0 <= x /\ f32 x).
  Let Hw0 : forall x, In x w -> 0 <= x.
  Proof. intros x Hx. apply Hw, Hx. Qed.
  Lemma nth_ok i : 0 <= nth i w 0 /\ f32 (nth i w 0).
  Proof. destruct (nth_in_or_default i w 0) as [Hi|E]; [apply Hw, Hi|rewrite E; split; [lra|apply f32_0]]. Qed.
  Lemma accs_ok i : 0 <= accs w i /\ f64 (accs w i).
  Proof.
    induction i as [|i IH]; [split; [cbn; lra|apply f64_f32, f32_0]|]. destruct (le_lt_dec (length w) i) as [H|H].
    - rewrite accs_all, <- (accs_all w i) by lia. exact IH.
    - rewrite accs_S by exact H. pose proof (nth_ok i). split; [apply r64_ge0; lra|apply f64_r64].
  Qed.
  Lemma accs_step i : accs w i <= accs w (S i).
  Proof.
    destruct (le_lt_dec (length w) i) as [H|H]; [rewrite (accs_all w i), (accs_all w (S i)) by lia; lra|].
    rewrite accs_S by exact H. pose proof (accs_ok i) as [H0 H1]. rewrite <- (r64_id (accs w i)) at 1 by exact H1. apply r64_mono. pose proof (nth_ok i). lra.
  Qed.
  Lemma accs_mono i j : (i <= j)%nat -> accs w i <= accs w j.
  Proof. induction 1 as [|j H IH]; [lra|]. pose proof (accs_step j). lra. Qed.
  Lemma accs_elem i : (i < length w)%nat -> nth i w 0 <= accs w (length w).
  Proof.
    intros H. apply Rle_trans with (accs w (S i)); [|apply accs_mono; lia]. rewrite accs_S by exact H. pose proof (nth_ok i) as [H0 H1]. pose proof (accs_ok i).
    rewrite <- (r64_id (nth i w 0)) at 1 by (apply f64_f32, H1). apply r64_mono. lra.
  Qed.
  Lemma psum_ge0 i : 0 <= psum w i.
  Proof. change 0 with (psum w 0). apply psum_mono; [exact Hw0|lia]. Qed.
  Lemma accs_err i : small i -> (1 - INR i * (2 * eps64)) * psum w i <= accs w i <= (1 + INR i * (2 * eps64)) * psum w i.
  Proof.
    assert (He : 0 < eps64) by (apply Rinv_0_lt_compat, IZR_lt; reflexivity).
    induction i as [|i IH]; intros Hs; [cbn; lra|]. specialize (IH ltac:(unfold small in *; lia)).
    assert (Hi : INR i * (2 * eps64) <= 1).
    { unfold small in Hs. assert (INR i <= IZR (2 ^ 24)) by (rewrite INR_IZR_INZ; apply IZR_le; lia).
      apply Rle_trans with (IZR (2 ^ 24) * (2 * eps64)); [apply Rmult_le_compat_r; lra|]. unfold eps64. cbn [Z.pow Z.pow_pos Pos.iter Z.mul Pos.mul]. lra. }
    pose proof (pos_INR i) as Hi0. pose proof (psum_ge0 i) as Hp. rewrite S_INR. destruct (le_lt_dec (length w) i) as [H|H].
    - rewrite (accs_all w (S i)), <- (accs_all w i) by lia. rewrite (psum_all w (S i)), <- (psum_all w i) by lia.
      assert (0 <= eps64 * psum w i) by nra. nra.
    - rewrite accs_S, psum_S by exact H. pose proof (nth_ok i) as [N0 N1]. pose proof (accs_ok i) as [A0 A1]. set (x := nth i w 0) in *.
      pose proof (r64_err (accs w i) x A1 (f64_f32 _ N1) ltac:(lra)) as [R1 R2].
      set (a := accs w i) in *. set (q := psum w i) in *. set (b := INR i * (2 * eps64)) in *.
      assert (Hb0 : 0 <= b) by (unfold b; nra). assert (B1 : (1 - b) * (q + x) <= a + x) by nra. assert (B2 : a + x <= (1 + b) * (q + x)) by nra.
      replace ((INR i + 1) * (2 * eps64)) with (b + 2 * eps64) by (unfold b; ring). split.
      + eapply Rle_trans; [|exact R1]. apply Rle_trans with ((1 - b) * (q + x) * (1 - eps64)); [|apply Rmult_le_compat_r; [unfold eps64; cbn [Z.pow Z.pow_pos Pos.iter Z.mul Pos.mul]; lra|exact B1]].
        assert (0 <= b * eps64 * (q + x)) by (apply Rmult_le_pos; nra). nra.
      + eapply Rle_trans; [exact R2|]. apply Rle_trans with ((1 + b) * (q + x) * (1 + eps64)); [apply Rmult_le_compat_r; [lra|exact B2]|].
        assert (b * eps64 * (q + x) <= eps64 * (q + x)); [|nra]. apply Rmult_le_compat_r; [lra|]. nra.
  Qed.
  Lemma accs_close i : small i -> (1 - eps / 16) * psum w i <= accs w i <= (1 + eps / 16) * psum w i.
  Proof.
    intros H. pose proof (accs_err i H) as [H1 H2]. pose proof (psum_ge0 i).
    assert (Hi : INR i * (2 * eps64) <= eps / 16).
    { unfold small in H. assert (INR i <= IZR (2 ^ 24)) by (rewrite INR_IZR_INZ; apply IZR_le; lia).
      assert (He : 0 < eps64) by (apply Rinv_0_lt_compat, IZR_lt; reflexivity).
      apply Rle_trans with (IZR (2 ^ 24) * (2 * eps64)); [apply Rmult_le_compat_r; lra|]. unfold eps64, eps. cbn [Z.pow Z.pow_pos Pos.iter Z.mul Pos.mul]. lra. }
    split; [eapply Rle_trans; [|exact H1]|eapply Rle_trans; [exact H2|]]; apply Rmult_le_compat_r; lra.
  Qed.
End Partial.

(** ** The cumulative weights *)
Section Column.
  Context (fexp : R -> R) (sum : list R -> R) (HE : accurate_exp fexp) (HS : adds_up sum).
  Context (lw : list ereal) (Ha : alive lw) (Hn : small (length lw)).
  Notation n := (length lw).
  Let mx := emax lw.
  Let es := map (shifted fexp mx) lw.
  Let s := sum es.
  Let w := softmax32 fexp sum lw.
  Let E (x : ereal) : R := match x with NInf => 0 | Fin r => exp (r - mx) end.
  Let A (i : nat) : R := psum (map E lw) i.

  Lemma mx_spec : (forall r, In (Fin r) lw -> r <= mx) /\ In (Fin mx) lw.
  Proof.
    destruct Ha as [r0 H0]. set (l := flat_map (fun x => match x with NInf => [] | Fin r => [r] end) lw).
    assert (Hin : forall r, In r l <-> In (Fin r) lw).
    { intros r. unfold l. rewrite in_flat_map. split.
      - intros ([|y] & Hy & Hi); [destruct Hi|]. destruct Hi as [->|[]]. exact Hy.
      - intros H. exists (Fin r). split; [exact H|left; reflexivity]. }
    destruct (rmax_spec l) as [H1 H2]; [intros E0; apply Hin in H0; rewrite E0 in H0; exact H0|]. split.
    - intros r Hr. apply H1, Hin, Hr.
    - apply Hin. exact H2.
  Qed.
  Lemma n_pos : (0 < n)%nat.
  Proof. destruct Ha as [r H]. destruct lw; [contradiction|cbn; lia]. Qed.
  Lemma shifted_range x : In x lw -> 0 <= shifted fexp mx x <= 1.
  Proof.
    intros Hx. destruct x as [|r]; cbn [shifted]; [lra|]. apply HE. rewrite <- r32_0. apply r32_mono. pose proof (proj1 mx_spec r Hx). lra.
  Qed.
  Lemma shifted_near x : In x lw -> E x - (133 * eps * E x + / IZR (2 ^ 125)) <= shifted fexp mx x <= E x + (133 * eps * E x + / IZR (2 ^ 125)).
  Proof.
    intros Hx. assert (0 < / IZR (2 ^ 125)) by (apply Rinv_0_lt_compat, IZR_lt; reflexivity).
    destruct x as [|r]; cbn [shifted E]; [lra|]. apply near_exp; [exact HE|]. pose proof (proj1 mx_spec r Hx). lra.
  Qed.
  Lemma es_range x : In x es -> 0 <= x <= 1.
  Proof. intros H. apply in_map_iff in H. destruct H as (y & <- & Hy). apply shifted_range, Hy. Qed.
  Lemma es_one : In 1 es.
  Proof. apply in_map_iff. exists (Fin mx). split; [|apply mx_spec]. cbn [shifted]. rewrite Rminus_diag_eq, r32_0 by reflexivity. apply HE. Qed.
  Lemma s_range : 1 <= s <= INR n.
  Proof.
    assert (Hl : length es = n) by apply map_length. assert (Hs : summed es s) by (apply HS; intros E0; pose proof es_one as H; rewrite E0 in H; exact H).
    split.
    - apply (summed_ge1 es s Hs es_range); [rewrite Hl; exact Hn|apply es_one].
    - rewrite <- Hl. apply (summed_bounds es s Hs es_range). rewrite Hl. exact Hn.
  Qed.
  Lemma n_range : 1 <= INR n <= 16777216.
  Proof.
    split; [change 1 with (INR 1); apply le_INR, n_pos|]. unfold small in Hn. rewrite INR_IZR_INZ. apply IZR_le. exact Hn.
  Qed.
  Lemma w_length : length w = n.
  Proof. unfold w, softmax32. rewrite !map_length. reflexivity. Qed.
  Lemma w_nth i : (i < n)%nat -> nth i w 0 = r32 (shifted fexp mx (nth i lw NInf) / s).
  Proof.
    intros H. unfold w, softmax32. fold mx. fold es. fold s. rewrite (nth_indep _ 0 (r32 (shifted fexp mx NInf / s))) by (rewrite map_length; unfold es; rewrite map_length; exact H).
    rewrite (map_nth (fun e => r32 (e / s))). unfold es. rewrite (map_nth (shifted fexp mx)). reflexivity.
  Qed.
  Lemma w_ok x : In x w -> 0 <= x /\ f32 x.
  Proof.
    intros H. unfold w, softmax32 in H. fold mx in H. fold es in H. fold s in H. apply in_map_iff in H. destruct H as (y & <- & Hy). split; [|apply f32_r32].
    apply r32_ge0. pose proof s_range. apply Rmult_le_pos; [apply es_range, Hy|left; apply Rinv_0_lt_compat; lra].
  Qed.
  Lemma E_ge0 x : 0 <= E x.
  Proof. destruct x; cbn; [lra|left; apply exp_pos]. Qed.
  Let t2 := / IZR (2 ^ 124).
  Lemma w_near i : (i < n)%nat -> E (nth i lw NInf) - (134.1 * eps * E (nth i lw NInf) + t2) <= s * nth i w 0 <= E (nth i lw NInf) + (134.1 * eps * E (nth i lw NInf) + t2).
  Proof.
    intros H. rewrite w_nth by exact H. set (x := nth i lw NInf). assert (Hx : In x lw) by (apply nth_In, H).
    pose proof (shifted_near x Hx) as Hsn. pose proof (shifted_range x Hx) as Hr. pose proof s_range as Hs. pose proof (E_ge0 x) as He. pose proof n_range as Hnr.
    set (y := shifted fexp mx x) in *. assert (Hq : 0 <= y / s) by (apply Rmult_le_pos; [lra|left; apply Rinv_0_lt_compat; lra]).
    pose proof (r32_err (y / s) Hq) as [R1 R2]. apply (Rmult_le_compat_l s) in R1; [|lra]. apply (Rmult_le_compat_l s) in R2; [|lra].
    assert (Ey : s * (y / s) = y) by (field; lra).
    replace (s * (y / s - (eps * (y / s) + tiny))) with (y - (eps * y + s * tiny)) in R1 by (field; lra).
    replace (s * (y / s + (eps * (y / s) + tiny))) with (y + (eps * y + s * tiny)) in R2 by (field; lra).
    assert (T0 : 0 < tiny) by (apply Rinv_0_lt_compat, IZR_lt; reflexivity).
    assert (Ht : s * tiny <= 16777216 * tiny) by (apply Rmult_le_compat_r; lra).
    assert (H1 : 16777216 * tiny + 1.1 * / IZR (2 ^ 125) <= t2) by (unfold tiny, t2; cbn [Z.pow Z.pow_pos Pos.iter Z.mul Pos.mul]; lra).
    assert (H2 : 0 < / IZR (2 ^ 125)) by (apply Rinv_0_lt_compat, IZR_lt; reflexivity).
    set (t1 := / IZR (2 ^ 125)) in *. unfold eps in *. lra.
  Qed.
  Lemma psum_map (f : ereal -> R) l i : psum (map f l) i = rsum (map f (firstn i l)).
  Proof. unfold psum. rewrite firstn_map. reflexivity. Qed.
  Lemma A_S i : (i < n)%nat -> A (S i) = A i + E (nth i lw NInf).
  Proof.
    intros H. unfold A. rewrite psum_S by (rewrite map_length; exact H). f_equal.
    rewrite (nth_indep _ 0 (E NInf)) by (rewrite map_length; exact H). apply map_nth.
  Qed.
  Lemma A_ge0 i : 0 <= A i.
  Proof. unfold A. change 0 with (psum (map E lw) 0). apply psum_mono; [|lia]. intros x Hx. apply in_map_iff in Hx. destruct Hx as (y & <- & _). apply E_ge0. Qed.
  Lemma A_mono i j : (i <= j)%nat -> A i <= A j.
  Proof. intros H. unfold A. apply psum_mono; [|exact H]. intros x Hx. apply in_map_iff in Hx. destruct Hx as (y & <- & _). apply E_ge0. Qed.
  Lemma A_n : 1 <= A n.
  Proof.
    unfold A. rewrite psum_all by (rewrite map_length; lia). apply rsum_ge_elem.
    - intros x Hx. apply in_map_iff in Hx. destruct Hx as (y & <- & _). apply E_ge0.
    - apply in_map_iff. exists (Fin mx). split; [|apply mx_spec]. cbn [E]. rewrite Rminus_diag_eq, exp_0 by reflexivity. reflexivity.
  Qed.
  (** the exact partial sums of the weights *)
  Lemma exact_psum i : psum (softmax lw) i = A i / A n.
  Proof.
    assert (F : forall l, rsum (map E l) = rsum (map eexp l) * exp (- mx)).
    { induction l as [|x l IH]; [cbn; ring|]. cbn [map]. rewrite !rsum_cons, IH. destruct x as [|r]; cbn [E eexp]; [ring|]. unfold Rminus. rewrite exp_plus. ring. }
    unfold A. rewrite (psum_map E). rewrite (psum_all (map E lw)) by (rewrite map_length; lia). rewrite !F.
    pose proof (alive_pos lw Ha) as Hp. pose proof (exp_pos (- mx)). unfold softmax. set (S := rsum (map eexp lw)) in *.
    rewrite psum_map. rewrite (rsum_ext _ (fun x => / S * eexp x)) by (intros; unfold Rdiv; ring). rewrite <- (map_map eexp (fun x => / S * x)), rsum_scale. field. lra.
  Qed.
  Lemma sums_near i : (i <= n)%nat -> A i - (134.1 * eps * A i + INR i * t2) <= s * psum w i <= A i + (134.1 * eps * A i + INR i * t2).
  Proof.
    induction i as [|i IH]; intros H; [unfold A; cbn; lra|]. specialize (IH ltac:(lia)). rewrite A_S by lia. rewrite psum_S by (rewrite w_length; lia).
    pose proof (w_near i ltac:(lia)). rewrite S_INR. rewrite Rmult_plus_distr_l. lra.
  Qed.
  (** the rounded partial sums *)
  Let c (i : nat) : R := r32 (accs w i).
  Let t3 := / IZR (2 ^ 99).
  Lemma c_near i : (i <= n)%nat -> A i - (135.3 * eps * A i + t3) <= s * c i <= A i + (135.3 * eps * A i + t3).
  Proof.
    intros H. pose proof (sums_near i H) as Hs. assert (Hsm : small i) by (unfold small in *; lia).
    pose proof (accs_close w w_ok i Hsm) as [C1 C2]. pose proof (accs_ok w w_ok i) as [C0 _]. pose proof s_range as Hsr. pose proof n_range as Hnr. pose proof (A_ge0 i) as HA.
    pose proof (r32_err (accs w i) C0) as [R1 R2]. fold (c i) in R1, R2. set (q := psum w i) in *. set (a := accs w i) in *.
    assert (Hi : INR i <= 16777216) by (apply Rle_trans with (INR n); [apply le_INR, H|lra]).
    assert (T0 : 0 < tiny) by (apply Rinv_0_lt_compat, IZR_lt; reflexivity). assert (T2 : 0 < t2) by (apply Rinv_0_lt_compat, IZR_lt; reflexivity).
    assert (Q0 : 0 <= q) by (apply psum_ge0, w_ok).
    assert (B1 : INR i * t2 <= 16777216 * t2) by (apply Rmult_le_compat_r; lra).
    assert (B2 : s * tiny <= 16777216 * tiny) by (apply Rmult_le_compat_r; lra).
    assert (D1 : s * ((1 - eps / 16) * q) <= s * a) by (apply Rmult_le_compat_l; lra). assert (D2 : s * a <= s * ((1 + eps / 16) * q)) by (apply Rmult_le_compat_l; lra).
    assert (D3 : s * (a - (eps * a + tiny)) <= s * c i) by (apply Rmult_le_compat_l; lra). assert (D4 : s * c i <= s * (a + (eps * a + tiny))) by (apply Rmult_le_compat_l; lra).
    assert (T3 : 1.1 * (16777216 * t2) + 16777216 * tiny <= t3) by (unfold t2, t3, tiny; cbn [Z.pow Z.pow_pos Pos.iter Z.mul Pos.mul]; lra).
    replace (s * ((1 - eps / 16) * q)) with ((1 - eps / 16) * (s * q)) in D1 by ring. replace (s * ((1 + eps / 16) * q)) with ((1 + eps / 16) * (s * q)) in D2 by ring.
    replace (s * (a - (eps * a + tiny))) with ((1 - eps) * (s * a) - s * tiny) in D3 by ring. replace (s * (a + (eps * a + tiny))) with ((1 + eps) * (s * a) + s * tiny) in D4 by ring.
    set (sq := s * q) in *. set (sa := s * a) in *. set (sc := s * c i) in *. set (st := s * tiny) in *. set (it := INR i * t2) in *. clearbody sq sa sc st it t2 t3. unfold eps in *. split; lra.
  Qed.
  Lemma c_mono i j : (i <= j)%nat -> c i <= c j.
  Proof. intros H. apply r32_mono, accs_mono; [apply w_ok|exact H]. Qed.
  Lemma c_pos : 0 < c n.
  Proof.
    pose proof (c_near n (le_n _)) as [H _]. pose proof A_n. pose proof s_range. assert (t3 <= / 1000) by (unfold t3; cbn [Z.pow Z.pow_pos Pos.iter Z.mul Pos.mul]; lra).
    assert (0 < s * c n) by (unfold eps in *; lra). apply Rmult_lt_reg_l with s; lra.
  Qed.
  Lemma csum_length : length (cumsum32 w) = n.
  Proof. unfold cumsum32. rewrite cumsum32_from_length. apply w_length. Qed.
  Lemma csum_nth i : (i < n)%nat -> nth i (cumsum32 w) 0 = c (S i).
  Proof. intros H. unfold cumsum32. apply cumsum32_from_nth. rewrite w_length. exact H. Qed.
  Lemma cmax_c : rmax (cumsum32 w) = c n.
  Proof.
    pose proof n_pos as Hp. pose proof csum_length as Hl. destruct (rmax_spec (cumsum32 w)) as [H1 H2]; [intros E0; rewrite E0 in Hl; cbn in Hl; lia|].
    apply Rle_antisym.
    - apply (In_nth _ _ 0) in H2. destruct H2 as (i & Hi & <-). rewrite csum_nth by lia. apply c_mono. lia.
    - replace (c n) with (nth (n - 1) (cumsum32 w) 0) by (rewrite csum_nth by lia; f_equal; lia). apply H1, nth_In. lia.
  Qed.
  (** the normalised partial sums *)
  Let ncl := map (fun x => r32 (x / rmax (cumsum32 w))) (cumsum32 w).
  Let nc (i : nat) : R := r32 (c i / c n).
  Lemma ncl_length : length ncl = n.
  Proof. unfold ncl. rewrite map_length. apply csum_length. Qed.
  Lemma ncl_nth i : (i < n)%nat -> nth i ncl 0 = nc (S i).
  Proof.
    intros H. unfold ncl. rewrite cmax_c. rewrite (nth_indep _ 0 (r32 (0 / c n))) by (rewrite map_length, csum_length; exact H).
    rewrite (map_nth (fun x => r32 (x / c n))). rewrite csum_nth by exact H. reflexivity.
  Qed.
  Lemma nc_mono i j : (i <= j)%nat -> nc i <= nc j.
  Proof. intros H. apply r32_mono. pose proof c_pos. apply Rmult_le_compat_r; [left; apply Rinv_0_lt_compat; lra|apply c_mono, H]. Qed.
  Lemma nc_n : nc n = 1.
  Proof. unfold nc. pose proof c_pos. replace (c n / c n) with 1 by (field; lra). apply r32_1. Qed.
  Lemma nc_near i : (i <= n)%nat -> Rabs (nc i - psum (softmax lw) i) <= 272 * eps.
  Proof.
    intros H. rewrite exact_psum. pose proof (c_near i H) as [I1 I2]. pose proof (c_near n (le_n _)) as [N1 N2]. pose proof A_n as HA. pose proof (A_mono i n H) as Hm. pose proof (A_ge0 i) as H0.
    pose proof c_pos as Hc. pose proof s_range as Hs. assert (T3 : 0 < t3 <= eps / 1000) by (unfold t3, eps; cbn [Z.pow Z.pow_pos Pos.iter Z.mul Pos.mul]; lra).
    assert (Hci : 0 <= c i) by (apply r32_ge0, accs_ok, w_ok). assert (Hq : 0 <= c i / c n) by (apply Rmult_le_pos; [exact Hci|left; apply Rinv_0_lt_compat; lra]).
    pose proof (r32_err (c i / c n) Hq) as [R1 R2]. fold (nc i) in R1, R2. assert (T0 : 0 < tiny <= eps / 1000) by (unfold tiny, eps; cbn [Z.pow Z.pow_pos Pos.iter Z.mul Pos.mul]; lra).
    assert (Eq : c i / c n = (s * c i) / (s * c n)) by (field; lra). set (x := s * c i) in *. set (y := s * c n) in *.
    assert (Hy : 0 < y) by (unfold y; apply Rmult_lt_0_compat; lra).
    set (p := A i / A n) in *. assert (Ep : p * A n = A i) by (unfold p; field; lra).
    assert (Hp : 0 <= p <= 1).
    { unfold p. split; [apply Rmult_le_pos; [exact H0|left; apply Rinv_0_lt_compat; lra]|]. apply Rmult_le_reg_r with (A n); [lra|]. fold p. rewrite Ep. lra. }
    assert (X : Rabs (c i / c n - p) <= 270.7 * eps).
    { rewrite Eq. replace (x / y - p) with ((x - p * y) / y) by (field; lra). unfold Rdiv. rewrite Rabs_mult. rewrite (Rabs_pos_eq (/ y)) by (left; apply Rinv_0_lt_compat; lra).
      apply Rmult_le_reg_r with y; [exact Hy|]. rewrite Rmult_assoc, Rinv_l, Rmult_1_r by lra.
      assert (P1 : p * (A n - (135.3 * eps * A n + t3)) <= p * y) by (apply Rmult_le_compat_l; lra).
      assert (P2 : p * y <= p * (A n + (135.3 * eps * A n + t3))) by (apply Rmult_le_compat_l; lra).
      replace (p * (A n - (135.3 * eps * A n + t3))) with (A i - 135.3 * eps * A i - p * t3) in P1 by (rewrite <- Ep; ring).
      replace (p * (A n + (135.3 * eps * A n + t3))) with (A i + 135.3 * eps * A i + p * t3) in P2 by (rewrite <- Ep; ring).
      assert (P3 : p * t3 <= 1 * t3) by (apply Rmult_le_compat_r; lra). assert (P4 : 0 <= p * t3) by (apply Rmult_le_pos; lra).
      set (pt := p * t3) in *. set (py := p * y) in *. clearbody pt py x y t3. apply Rabs_le. unfold eps in *. split; lra. }
    apply Rabs_le_inv in X. apply Rabs_le. clearbody t3. unfold eps in *. lra.
  Qed.
  (** ** The ancestors *)
  Context (u : R) (Hu : 0 <= u < 1).
  Let t (k : nat) : R := r32 (r32 (INR k + u) / INR n).
  Lemma step_le k : (k < n)%nat -> r32 (INR k + u) <= INR n.
  Proof.
    intros H. rewrite <- (r32_id (INR n)) by (apply f32_INR, Hn). apply r32_mono. assert (INR k + 1 <= INR n) by (rewrite <- S_INR; apply le_INR; lia). lra.
  Qed.
  Lemma t_le1 k : (k < n)%nat -> t k <= 1.
  Proof.
    intros H. rewrite <- r32_1. apply r32_mono. pose proof n_range. pose proof (step_le k H).
    apply Rmult_le_reg_r with (INR n); [lra|]. unfold Rdiv. rewrite Rmult_assoc, Rinv_l by lra. lra.
  Qed.
  Lemma t_mono k k' : (k <= k')%nat -> t k <= t k'.
  Proof.
    intros H. apply r32_mono. pose proof n_range. apply Rmult_le_compat_r; [left; apply Rinv_0_lt_compat; lra|]. apply r32_mono. apply le_INR in H. lra.
  Qed.
  Lemma t_near k : (k < n)%nat -> Rabs (t k - (INR k + u) / INR n) <= 2.1 * eps.
  Proof.
    intros H. pose proof n_range as Hnr. pose proof (pos_INR k) as Hk. set (y := INR k + u). assert (Hy : 0 <= y <= INR n).
    { unfold y. assert (INR k + 1 <= INR n) by (rewrite <- S_INR; apply le_INR; lia). lra. }
    pose proof (r32_err y (proj1 Hy)) as [R1 R2]. pose proof (step_le k H) as R3. fold y in R3. pose proof (r32_ge0 y (proj1 Hy)) as R0.
    assert (Hi : 0 < / INR n <= 1) by (split; [apply Rinv_0_lt_compat; lra|rewrite <- Rinv_1; apply Rinv_le; lra]).
    assert (Hq : 0 <= r32 y / INR n <= 1).
    { split; [apply Rmult_le_pos; lra|]. apply Rmult_le_reg_r with (INR n); [lra|]. unfold Rdiv. rewrite Rmult_assoc, Rinv_l by lra. lra. }
    pose proof (r32_err (r32 y / INR n) (proj1 Hq)) as [S1 S2]. change (r32 (r32 y / INR n)) with (t k) in S1, S2.
    assert (T0 : 0 < tiny <= eps / 1000) by (unfold tiny, eps; cbn [Z.pow Z.pow_pos Pos.iter Z.mul Pos.mul]; lra).
    assert (Hz : 0 <= y / INR n <= 1).
    { split; [apply Rmult_le_pos; lra|]. apply Rmult_le_reg_r with (INR n); [lra|]. unfold Rdiv. rewrite Rmult_assoc, Rinv_l by lra. lra. }
    assert (B1 : y / INR n - (eps * (y / INR n) + tiny) <= r32 y / INR n).
    { apply Rle_trans with ((y - (eps * y + tiny)) * / INR n); [|apply Rmult_le_compat_r; lra]. assert (tiny * / INR n <= tiny * 1) by (apply Rmult_le_compat_l; lra). unfold Rdiv. lra. }
    assert (B2 : r32 y / INR n <= y / INR n + (eps * (y / INR n) + tiny)).
    { apply Rle_trans with ((y + (eps * y + tiny)) * / INR n); [apply Rmult_le_compat_r; lra|]. assert (tiny * / INR n <= tiny * 1) by (apply Rmult_le_compat_l; lra). unfold Rdiv. lra. }
    fold y. set (z := y / INR n) in *. set (q := r32 y / INR n) in *. clearbody z q. apply Rabs_le. unfold eps in *. split; lra.
  Qed.
  Lemma ancestors32_unfold : ancestors32 fexp sum lw u = map (fun k => lower_bound ncl (t k)) (seq 0 n).
  Proof. unfold ancestors32, usteps32. rewrite map_map. reflexivity. Qed.
  Lemma lb32_below v i : (1 <= i <= n)%nat -> ((lower_bound ncl v < i)%nat <-> v <= nc i).
  Proof.
    intros Hi. split.
    - intros H. apply Rle_trans with (nth (lower_bound ncl v) ncl 0).
      + apply lower_bound_ge. rewrite ncl_length. lia.
      + rewrite ncl_nth by lia. apply nc_mono. lia.
    - intros H. destruct (le_lt_dec i (lower_bound ncl v)) as [Hl|Hl]; [|exact Hl].
      assert (Hlt : nth (i - 1) ncl 0 < v) by (apply lower_bound_lt; lia).
      rewrite ncl_nth in Hlt by lia. replace (S (i - 1)) with i in Hlt by lia. lra.
  Qed.
  Lemma lb32_mono l v v' : v <= v' -> (lower_bound l v <= lower_bound l v')%nat.
  Proof. intros H. induction l as [|x l IH]; cbn; [lia|]. destruct (Rlt_dec x v), (Rlt_dec x v'); try lia. lra. Qed.
  Lemma ancestors32_length : length (ancestors32 fexp sum lw u) = n.
  Proof. rewrite ancestors32_unfold, map_length, seq_length. reflexivity. Qed.
  Lemma ancestors32_range i : In i (ancestors32 fexp sum lw u) -> (i < n)%nat.
  Proof.
    rewrite ancestors32_unfold. intros H. apply in_map_iff in H. destruct H as (k & <- & Hk). apply in_seq in Hk.
    apply lb32_below; [pose proof n_pos; lia|]. rewrite nc_n. apply t_le1. lia.
  Qed.
  Lemma ancestors32_sorted k k' : (k <= k')%nat -> (k' < n)%nat -> (nth k (ancestors32 fexp sum lw u) 0 <= nth k' (ancestors32 fexp sum lw u) 0)%nat.
  Proof.
    intros H1 H2. rewrite ancestors32_unfold.
    assert (N : forall j, (j < n)%nat -> nth j (map (fun k => lower_bound ncl (t k)) (seq 0 n)) 0%nat = lower_bound ncl (t j)).
    { intros j Hj. rewrite (nth_indep _ 0%nat (lower_bound ncl (t 0))) by (rewrite map_length, seq_length; exact Hj). rewrite (map_nth (fun k => lower_bound ncl (t k))). rewrite seq_nth by exact Hj. reflexivity. }
    rewrite !N by lia. apply lb32_mono, t_mono, H1.
  Qed.
  (** a particle whose weight is 0 *)
  Lemma weightless32 i : (i < n)%nat -> nth i w 0 = 0 -> (i <> 0%nat \/ bpow radix2 (-100) <= u) -> ~ In i (ancestors32 fexp sum lw u).
  Proof.
    intros Hi H0 Hor Hin. rewrite ancestors32_unfold in Hin. apply in_map_iff in Hin. destruct Hin as (k & E0 & Hk). apply in_seq in Hk.
    assert (H1 : t k <= nc (S i)) by (apply lb32_below; lia).
    assert (Ea : accs w (S i) = accs w i).
    { rewrite accs_S by (rewrite w_length; exact Hi). rewrite H0, Rplus_0_r. apply r64_id. apply accs_ok, w_ok. }
    assert (Ec : nc (S i) = nc i) by (unfold nc, c; rewrite Ea; reflexivity). rewrite Ec in H1.
    destruct (Nat.eq_dec i 0) as [->|Hi0]; [|apply lb32_below in H1; lia]. destruct Hor as [Hor|Hor]; [congruence|].
    assert (E1 : nc 0 = 0). { unfold nc, c, accs. cbn [firstn fold_left]. rewrite r32_0. unfold Rdiv. rewrite Rmult_0_l. apply r32_0. }
    rewrite E1 in H1. assert (H2 : bpow radix2 (-124) <= t k); [|pose proof (bpow_gt_0 radix2 (-124)); lra].
    pose proof n_range as Hnr. rewrite <- (r32_id (bpow radix2 (-124))) by (apply f32_bpow; lia). apply r32_mono.
    assert (H3 : bpow radix2 (-100) <= r32 (INR k + u)).
    { rewrite <- (r32_id (bpow radix2 (-100))) by (apply f32_bpow; lia). apply r32_mono. pose proof (pos_INR k). lra. }
    apply Rmult_le_reg_r with (INR n); [lra|]. unfold Rdiv. rewrite Rmult_assoc, Rinv_l, Rmult_1_r by lra. eapply Rle_trans; [|exact H3].
    replace (-100)%Z with (-124 + 24)%Z by reflexivity. rewrite bpow_plus. apply Rmult_le_compat_l; [apply bpow_ge_0|]. change (bpow radix2 24) with 16777216. lra.
  Qed.

  (** the number of ancestors below i *)
  Let G (i : nat) : nat := length (filter (fun k => Nat.ltb k i) (ancestors32 fexp sum lw u)).
  Lemma filter_le {X} (P Q : X -> bool) l : (forall x, In x l -> P x = true -> Q x = true) -> (length (filter P l) <= length (filter Q l))%nat.
  Proof.
    induction l as [|x l IH]; intros H; [cbn; lia|]. specialize (IH (fun y Hy => H y (or_intror Hy))). pose proof (H x (or_introl eq_refl)) as Hx. cbn.
    destruct (P x), (Q x); cbn; try lia; try (specialize (Hx eq_refl); discriminate).
  Qed.
  Lemma filter_le_all {X} (P : X -> bool) l : (length (filter P l) <= length l)%nat.
  Proof. induction l as [|x l IH]; cbn; [lia|]. destruct (P x); cbn; lia. Qed.
  Let eta := 274.2 * eps.
  Lemma G32_bounds i : (i <= n)%nat -> INR n * psum (softmax lw) i - u - INR n * eta <= INR (G i) <= INR n * psum (softmax lw) i - u + 1 + INR n * eta.
  Proof.
    intros Hi. pose proof n_range as Hnr. assert (Heta : 0 < eta) by (unfold eta, eps; lra). assert (Hne : 0 < INR n * eta) by (apply Rmult_lt_0_compat; lra).
    destruct (Nat.eq_dec i 0) as [->|H0].
    { assert (E0 : G 0 = 0%nat) by (unfold G; induction (ancestors32 fexp sum lw u) as [|x l IH]; [reflexivity|exact IH]). rewrite E0. change (psum (softmax lw) 0) with 0. cbn [INR]. lra. }
    pose proof (nc_near i Hi) as Hnc. apply Rabs_le_inv in Hnc. set (p := psum (softmax lw) i) in *.
    assert (Hp : 0 <= p <= 1) by (apply psum_range; assumption).
    assert (HG : G i = length (filter (fun k => Nat.ltb (lower_bound ncl (t k)) i) (seq 0 n))) by (unfold G; rewrite ancestors32_unfold, filter_map, map_length; reflexivity).
    assert (K : forall k, (k < n)%nat -> t k - 2.1 * eps <= (INR k + u) / INR n <= t k + 2.1 * eps).
    { intros k Hk. pose proof (t_near k Hk) as Hq. apply Rabs_le_inv in Hq. lra. }
    assert (D : forall k x, (INR k + u) / INR n <= x <-> INR k <= INR n * x - u).
    { intros k x. split; intros H.
      - apply Rmult_le_compat_r with (r := INR n) in H; [|lra]. unfold Rdiv in H. rewrite Rmult_assoc, Rinv_l in H by lra. lra.
      - apply Rmult_le_reg_r with (INR n); [lra|]. unfold Rdiv. rewrite Rmult_assoc, Rinv_l by lra. lra. }
    split.
    - destruct (Rlt_le_dec (INR n * (p - eta) - u) (-1)) as [Hs|Hs]; [pose proof (pos_INR (G i)); lra|].
      assert (Hc : (kcount n (INR n * (p - eta) - u) <= G i)%nat).
      { rewrite HG. apply filter_le. intros k Hk. apply in_seq in Hk. destruct (Rle_dec _ _) as [Hx|]; [intros _|discriminate].
        apply Nat.ltb_lt, lb32_below; [lia|]. apply D in Hx. pose proof (K k ltac:(lia)). unfold eta in Hx. unfold eps in *. lra. }
      apply le_INR in Hc. assert (INR n * (p - eta) <= INR n * 1) by (apply Rmult_le_compat_l; lra).
      pose proof (kcount_bounds n (INR n * (p - eta) - u) Hs ltac:(lra)) as [B _]. lra.
    - destruct (Rlt_le_dec (INR n) (INR n * (p + eta) - u)) as [Hs|Hs].
      { assert (Hc : (G i <= n)%nat) by (rewrite HG; etransitivity; [apply filter_le_all|rewrite seq_length; lia]). apply le_INR in Hc. lra. }
      assert (Hc : (G i <= kcount n (INR n * (p + eta) - u))%nat).
      { rewrite HG. apply filter_le. intros k Hk Hx. apply in_seq in Hk. apply Nat.ltb_lt, lb32_below in Hx; [|lia].
        destruct (Rle_dec _ _) as [|Hy]; [reflexivity|]. exfalso. apply Hy. apply D. pose proof (K k ltac:(lia)). unfold eta, eps in *. lra. }
      apply le_INR in Hc. assert (0 <= INR n * (p + eta)) by (apply Rmult_le_pos; lra).
      pose proof (kcount_bounds n (INR n * (p + eta) - u) ltac:(lra) Hs) as [_ B]. lra.
  Qed.
  Lemma offspring32 i : (i < n)%nat -> Rabs (INR (offspring (ancestors32 fexp sum lw u) i) - INR n * nth i (softmax lw) 0) <= 1 + INR n * / 16384.
  Proof.
    intros Hi. pose proof (offspring_split (ancestors32 fexp sum lw u) i) as Hs. fold (G (S i)) in Hs. fold (G i) in Hs.
    assert (E0 : INR (offspring (ancestors32 fexp sum lw u) i) = INR (G (S i)) - INR (G i)) by (rewrite Hs, plus_INR; ring). rewrite E0.
    pose proof (G32_bounds i ltac:(lia)) as [B1 B2]. pose proof (G32_bounds (S i) ltac:(lia)) as [B3 B4]. rewrite psum_S in B3, B4 by (rewrite softmax_length; exact Hi).
    pose proof n_range. assert (INR n * eta <= INR n * (/ 16384 / 2)) by (apply Rmult_le_compat_l; unfold eta, eps; lra).
    rewrite Rmult_plus_distr_l in B3, B4. apply Rabs_le. lra.
  Qed.
End Column.
