(** Property C64: systematic resampling in floating-point arithmetic. *)
From Coq Require Import Lra Permutation.
From Flocq Require Import Core.
From Verif Require Import FloatFacts.
Open Scope nat_scope.

(** C64. Computed in binary32, for every population of at most 2^24 particles of which at least
    one has a finite log-weight, every offset and every order in which softmax adds up: the
    ancestors are valid indices in ascending order. *)
Theorem C64_ancestors_valid : forall fexp sum lw u, accurate_exp fexp -> adds_up sum ->
  alive lw -> (Z.of_nat (length lw) <= 2 ^ 24)%Z -> (0 <= u < 1)%R ->
  length (ancestors32 fexp sum lw u) = length lw /\
  (forall i, In i (ancestors32 fexp sum lw u) -> i < length lw) /\
  (forall k k', k <= k' -> k' < length lw -> nth k (ancestors32 fexp sum lw u) 0 <= nth k' (ancestors32 fexp sum lw u) 0).
Proof.
  intros fexp sum lw u HE HS Ha Hn Hu. split; [apply ancestors32_length|]. split.
  - intros i. apply ancestors32_range; assumption.
  - intros k k'. apply ancestors32_sorted; assumption.
Qed.
Print Assumptions C64_ancestors_valid.

(** The number of copies of a particle is within 1 + n/2^14 of n times its exact normalised weight
    (in exact arithmetic it is within 1, C29). *)
Theorem C64_copies : forall fexp sum lw u i, accurate_exp fexp -> adds_up sum ->
  alive lw -> (Z.of_nat (length lw) <= 2 ^ 24)%Z -> (0 <= u < 1)%R -> i < length lw ->
  (Rabs (INR (offspring (ancestors32 fexp sum lw u) i) - INR (length lw) * nth i (softmax lw) 0) <= 1 + INR (length lw) / 2 ^ 14)%R.
Proof.
  intros fexp sum lw u i HE HS Ha Hn Hu Hi. replace (2 ^ 14)%R with 16384%R by (rewrite (pow_IZR 2 14); reflexivity). apply offspring32; assumption.
Qed.
Print Assumptions C64_copies.

(** A particle of weight zero is not copied, except particle 0 for an offset of (almost) zero; a
    particle with log-weight -inf has weight zero. torch.rand returns multiples of 2^-24. *)
Theorem C64_weightless_die : forall fexp sum lw u i, accurate_exp fexp -> adds_up sum ->
  alive lw -> (Z.of_nat (length lw) <= 2 ^ 24)%Z -> (0 <= u < 1)%R -> i < length lw ->
  nth i lw NInf = NInf \/ nth i (softmax32 fexp sum lw) 0%R = 0%R -> i <> 0 \/ (/ 2 ^ 24 <= u)%R ->
  ~ In i (ancestors32 fexp sum lw u).
Proof.
  intros fexp sum lw u i HE HS Ha Hn Hu Hi H0 Hor. apply weightless32; try assumption.
  - destruct H0 as [H0|H0]; [|exact H0]. rewrite w_nth by assumption. rewrite H0. cbn [shifted]. unfold Rdiv. rewrite Rmult_0_l. apply r32_0.
  - destruct Hor as [Hor|Hor]; [left; exact Hor|right]. eapply Rle_trans; [|exact Hor]. replace (2 ^ 24)%R with (bpow radix2 24) by (rewrite (pow_IZR 2 24); reflexivity).
    rewrite <- bpow_opp. apply bpow_le. lia.
Qed.
Print Assumptions C64_weightless_die.

(** ** Cases: the correctly rounded exponential, and adding from right to left *)
Fixpoint sum32 (l : list R) : R := match l with [] => 0%R | [x] => x | x :: l' => r32 (x + sum32 l') end.
Example C64_exp : accurate_exp (fun x => r32 (exp x)).
Proof.
  assert (P : forall x, (x <= 0)%R -> (0 < exp x <= 1)%R).
  { intros x Hx. split; [apply exp_pos|]. rewrite <- exp_0. destruct (Rle_lt_or_eq_dec _ _ Hx) as [H|H]; [left; apply exp_increasing, H|rewrite H; lra]. }
  constructor.
  - rewrite exp_0. apply r32_1.
  - intros x Hx. specialize (P x Hx). split; [apply r32_ge0; lra|]. rewrite <- r32_1. apply r32_mono. lra.
  - intros x Hx. specialize (P x Hx). pose proof (r32_err (exp x) ltac:(lra)) as H. apply Rabs_le.
    replace (2 ^ 22)%R with 4194304%R by (rewrite (pow_IZR 2 22); reflexivity). replace (2 ^ 126)%R with (IZR (2 ^ 126)) by (symmetry; apply (pow_IZR 2 126)).
    assert (tiny <= / IZR (2 ^ 126))%R by (apply Rinv_le; [apply IZR_lt; reflexivity|apply IZR_le; discriminate]). unfold eps in H. lra.
Qed.
Example C64_sum : adds_up sum32.
Proof.
  intros l. induction l as [|x l IH]; [congruence|]. intros _. destruct l as [|y l]; [constructor|].
  apply (summed_add _ [x] (y :: l)); [reflexivity|constructor|apply IH; discriminate].
Qed.
Example C64_population : alive [Fin 0; NInf; Fin 1; Fin (-7)]%R /\ (Z.of_nat (length [Fin 0; NInf; Fin 1; Fin (-7)]%R) <= 2 ^ 24)%Z /\ (0 <= 1/4 < 1)%R /\ (/ 2 ^ 24 <= 1/4)%R /\ nth 1 [Fin 0; NInf; Fin 1; Fin (-7)]%R NInf = NInf.
Proof.
  split; [exists 0%R; left; reflexivity|]. split; [cbn; lia|]. split; [lra|]. split; [|reflexivity].
  replace (2 ^ 24)%R with 16777216%R by (rewrite (pow_IZR 2 24); reflexivity). lra.
Qed.
