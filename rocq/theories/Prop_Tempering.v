(** C44: the tempered path. *)
From Coq Require Import Reals Lra Lia Psatz.
From Verif Require Import Tempering Thm_Annealing.
Close Scope R_scope.
Open Scope nat_scope.

Lemma sigmoid_logit b : (0 < b < 1)%R -> sigmoid (logit b) = b.
Proof.
  intros H. unfold sigmoid, logit. rewrite exp_Ropp, exp_ln by (apply Rdiv_lt_0_compat; lra). field; lra.
Qed.
Lemma sigmoid_range x : (0 < sigmoid x < 1)%R.
Proof.
  unfold sigmoid. pose proof (exp_pos (- x)). split; [apply Rinv_0_lt_compat; lra|].
  apply (Rmult_lt_reg_r (1 + exp (- x))); [lra|]. rewrite Rinv_l; lra.
Qed.
Lemma ceil_INR n : ceil (INR n) = Z.of_nat n.
Proof.
  unfold ceil. enough (up (- INR n) = (1 - Z.of_nat n)%Z) by lia.
  symmetry. apply tech_up; rewrite minus_IZR, <- INR_IZR_INZ; lra.
Qed.
Lemma arange_steps m : (0 < m)%nat -> arange 0 1 (1 / INR m) = Ok (map (fun i => INR i / INR m)%R (seq 0 m)).
Proof.
  intros Hm. apply lt_INR in Hm. cbn in Hm. unfold arange.
  assert (H : (1 / INR m > 0)%R) by (apply Rdiv_lt_0_compat; lra).
  destruct (Req_EM_T _ _) as [E|_]; [lra|].
  replace ((1 - 0) / (1 / INR m))%R with (INR m) by (field; lra).
  destruct (Rlt_dec _ _) as [Hl|_]; [lra|]. rewrite ceil_INR, Nat2Z.id. f_equal. apply map_ext. intros i. field. lra.
Qed.
Lemma nth_error_seq' i a n : nth_error (seq a n) i = if i <? n then Some (a + i) else None.
Proof.
  revert a i. induction n as [|n IH]; intros a [|i]; cbn [seq nth_error]; try reflexivity; [rewrite Nat.add_0_r; reflexivity|].
  rewrite IH. change (S i <? S n) with (i <? n). rewrite plus_Snm_nSm. reflexivity.
Qed.
Lemma path_eq {V} (left right : tdensity V) n m : forall a, 1 <= a -> a + n <= m ->
  rmapM (fun kb => tempered (gname (fst kb)) left right (snd kb)) (combine (seq a n) (map (fun i => INR i / INR m)%R (seq a n)))
  = Ok (map (fun k => Temp (gname k) left right (logit (INR k / INR m))) (seq a n)).
Proof.
  induction n as [|n IH]; intros a Ha Hm; cbn [seq map combine rmapM]; [reflexivity|].
  unfold tempered at 1. cbn [fst snd].
  assert (H : (0 < INR a < INR m)%R) by (split; [apply lt_0_INR|apply lt_INR]; lia).
  assert (H' : (0 < INR a / INR m < 1)%R).
  { split; [apply Rdiv_lt_0_compat; lra|]. apply (Rmult_lt_reg_r (INR m)); [lra|]. unfold Rdiv. rewrite Rmult_assoc, Rinv_l; lra. }
  destruct (Rlt_dec _ _); [|lra]. destruct (Rlt_dec _ _); [|lra]. cbn [rbind]. rewrite IH by lia. reflexivity.
Qed.
Lemma anneal_eq {V} (left right : tdensity V) n : 2 <= n ->
  anneal_between left right (Z.of_nat n)
  = Ok ([left] ++ map (fun k => Temp (gname k) left right (logit (INR k / INR (n - 1)))) (seq 1 (n - 2)) ++ [right]).
Proof.
  intros Hn. unfold anneal_between. destruct (Z.eqb_spec (Z.of_nat n - 1) 0) as [E|_]; [lia|].
  replace (IZR (Z.of_nat n - 1)) with (INR (n - 1)) by (rewrite INR_IZR_INZ; f_equal; lia).
  rewrite arange_steps by lia. cbn [rbind]. replace (Z.to_nat (Z.of_nat n - 2)) with (n - 2) by lia.
  replace (seq 0 (n - 1)) with (0 :: seq 1 (n - 2)) by (replace (n - 1) with (S (n - 2)) by lia; reflexivity).
  cbn [map tl]. rewrite path_eq by lia. cbn [rbind].
  destruct (Z.eqb_spec (Z.of_nat (length ([left] ++ map (fun k => Temp (gname k) left right (logit (INR k / INR (n - 1)))) (seq 1 (n - 2)) ++ [right]))) (Z.of_nat n)) as [_|E]; [reflexivity|].
  exfalso. apply E. rewrite !app_length, map_length, seq_length. cbn. lia.
Qed.

(** C44. For every number of targets n >= 2 the path has n targets; the first is [left], the last is
    [right]; the one in between at position k is named g{k} and its log-density is the convex
    combination of the end log-densities with inverse temperature [beta k]; the temperatures
    are in (0,1) and strictly increasing. *)
Theorem C44_tempered_path (V : Type) (left right : tdensity V) (n : nat) : 2 <= n ->
  exists path (beta : nat -> R),
    anneal_between left right (Z.of_nat n) = Ok path /\
    length path = n /\ nth_error path 0 = Some left /\ nth_error path (n - 1) = Some right /\
    (forall k, 0 < k < n - 1 -> exists g, nth_error path k = Some g /\ d_name g = gname k /\
       forall v, log_prob g v = ((1 - beta k) * log_prob left v + beta k * log_prob right v)%R) /\
    (forall k, 0 < k < n - 1 -> (0 < beta k < 1)%R) /\
    (forall j k, 0 < j < k -> k < n - 1 -> (beta j < beta k)%R).
Proof.
  intros Hn. eexists. exists (fun k => INR k / INR (n - 1))%R. split; [apply anneal_eq, Hn|].
  assert (Hb : forall k, 0 < k < n - 1 -> (0 < INR k / INR (n - 1) < 1)%R).
  { intros k Hk. assert (H : (0 < INR k < INR (n - 1))%R) by (split; [apply lt_0_INR|apply lt_INR]; lia).
    split; [apply Rdiv_lt_0_compat; lra|]. apply (Rmult_lt_reg_r (INR (n - 1))); [lra|]. unfold Rdiv. rewrite Rmult_assoc, Rinv_l; lra. }
  split; [rewrite !app_length, map_length, seq_length; cbn; lia|]. split; [reflexivity|].
  split.
  { rewrite app_assoc, nth_error_app2; rewrite app_length, map_length, seq_length; cbn [length]; [|lia].
    replace (n - 1 - (1 + (n - 2))) with 0 by lia. reflexivity. }
  split.
  { intros k Hk. exists (Temp (gname k) left right (logit (INR k / INR (n - 1)))). split.
    - destruct k as [|k]; [lia|]. cbn [app nth_error]. rewrite nth_error_app1 by (rewrite map_length, seq_length; lia).
      rewrite nth_error_map, nth_error_seq'. replace (k <? n - 2) with true by (symmetry; apply Nat.ltb_lt; lia). reflexivity.
    - split; [reflexivity|]. intros v. cbn [log_prob]. rewrite sigmoid_logit by (apply Hb; lia). ring. }
  split; [exact Hb|].
  intros j k Hj Hk. apply Rmult_lt_compat_r; [apply Rinv_0_lt_compat, lt_0_INR; lia|apply lt_INR; lia].
Qed.
Print Assumptions C44_tempered_path.

(** With fewer than two targets there is no path: one target divides by zero, none or a negative
    number of targets is rejected by arange. *)
Theorem C44_too_few (V : Type) (left right : tdensity V) (n : Z) : (n < 2)%Z ->
  anneal_between left right n = Err (if (n =? 1)%Z then ZeroDivisionError else RuntimeError).
Proof.
  intros Hn. unfold anneal_between. destruct (Z.eqb_spec n 1) as [->|Hne]; [reflexivity|].
  destruct (Z.eqb_spec (n - 1) 0) as [E|_]; [lia|].
  assert (H : (IZR (n - 1) < 0)%R) by (apply (IZR_lt _ 0); lia).
  assert (H' : (/ IZR (n - 1) < 0)%R) by (apply Rinv_lt_0_compat, H).
  unfold arange. destruct (Req_EM_T _ _) as [E|_]; [unfold Rdiv in E; lra|].
  replace ((1 - 0) / (1 / IZR (n - 1)))%R with (IZR (n - 1)) by (field; lra).
  destruct (Rlt_dec _ _); [reflexivity|lra].
Qed.
Print Assumptions C44_too_few.

(** Whatever value training moves the logit to, a tempered density stays a strict convex
    combination of its ends. *)
Theorem C44_trained (V : Type) (name : string) (d1 d2 : tdensity V) (lgt : R) :
  exists beta, (0 < beta < 1)%R /\
    forall v, log_prob (Temp name d1 d2 lgt) v = ((1 - beta) * log_prob d1 v + beta * log_prob d2 v)%R.
Proof. exists (sigmoid lgt). split; [apply sigmoid_range|]. intros v. cbn [log_prob]. ring. Qed.
Print Assumptions C44_trained.
Example C44_case : exists path g, anneal_between (Distr "g0" (fun x : R => - x * x)%R) (Dens "g4" (fun x => x)%R) 5 = Ok path /\
  nth_error path 1 = Some g /\ log_prob g 2%R = (- 5 / 2)%R.
Proof.
  change 5%Z with (Z.of_nat 5). rewrite anneal_eq by lia. eexists. eexists. split; [reflexivity|]. split; [reflexivity|].
  cbn [log_prob]. rewrite sigmoid_logit; cbn; lra.
Qed.

(** C51. The mixture target: its density is the sum of the densities of its components. *)
Theorem C51_mixture (V : Type) (comps : list (V -> R)) (v : V) : comps <> [] ->
  exists ld, gmm_log_density comps v = Ok ld /\ exp ld = rsum (map (fun f => exp (f v)) comps).
Proof.
  intros H. destruct comps as [|f comps]; [congruence|]. eexists. split; [reflexivity|]. apply exp_ln.
  cbn [map rsum fold_right]. fold (rsum (map (fun f => exp (f v)) comps)).
  assert (0 <= rsum (map (fun f => exp (f v)) comps))%R.
  { induction comps as [|g comps IH]; cbn; [lra|]. fold (rsum (map (fun f => exp (f v)) comps)).
    pose proof (exp_pos (g v)). assert (f :: comps <> []) by discriminate. specialize (IH H1). lra. }
  pose proof (exp_pos (f v)). lra.
Qed.
Print Assumptions C51_mixture.

Lemma cos_1_unique x : (0 < x < 2 * PI)%R -> cos x <> 1%R.
Proof.
  intros H E. replace x with (2 * (x / 2))%R in E by field. rewrite cos_2a_sin in E.
  assert (0 < sin (x / 2))%R by (apply sin_gt_0; lra). nra.
Qed.
(** C51. The means of the ring are [count] different points at distance [radius] of the origin. *)
Theorem C51_ring (radius : R) (count : nat) : (0 < radius)%R -> 0 < count ->
  exists locs, ring_locs radius count = Ok locs /\ length locs = count /\ NoDup locs /\
    forall x y, In (x, y) locs -> (x * x + y * y = radius * radius)%R.
Proof.
  intros Hr Hc. destruct count as [|c]; [lia|]. set (n := S c). unfold ring_locs. fold n.
  eexists. split; [reflexivity|]. rewrite map_length, seq_length. split; [reflexivity|].
  assert (Hn : (0 < INR n)%R) by (apply lt_0_INR; lia). pose proof PI_RGT_0 as Hpi.
  split.
  - assert (Hinj : forall i j, i < j < n -> (radius * sin (2 * PI / INR n * INR i), radius * cos (2 * PI / INR n * INR i))%R <>
        (radius * sin (2 * PI / INR n * INR j), radius * cos (2 * PI / INR n * INR j))%R).
    { intros i j Hij E. assert (Es := f_equal fst E). assert (Ec := f_equal snd E). cbn [fst snd] in Es, Ec. apply Rmult_eq_reg_l in Es; [|lra]. apply Rmult_eq_reg_l in Ec; [|lra].
      set (a := (2 * PI / INR n * INR i)%R) in *. set (b := (2 * PI / INR n * INR j)%R) in *.
      assert (Hd : (b - a = 2 * PI * (INR (j - i) / INR n))%R).
      { unfold a, b. rewrite minus_INR by lia. field. lra. }
      assert (H0 : (0 < INR (j - i) / INR n < 1)%R).
      { assert (0 < INR (j - i) < INR n)%R by (split; [apply lt_0_INR|apply lt_INR]; lia).
        split; [apply Rdiv_lt_0_compat; lra|]. apply (Rmult_lt_reg_r (INR n)); [lra|]. unfold Rdiv. rewrite Rmult_assoc, Rinv_l; lra. }
      apply (cos_1_unique (b - a)); [rewrite Hd; split; nra|].
      rewrite cos_minus, <- Es, <- Ec. pose proof (sin2_cos2 a) as H. unfold Rsqr in H. lra. }
    apply (NoDup_nth_error _). intros i j Hi E. rewrite map_length, seq_length in Hi. rewrite !nth_error_map, !nth_error_seq' in E.
    replace (i <? n) with true in E by (symmetry; apply Nat.ltb_lt, Hi). cbn [option_map plus] in E.
    destruct (j <? n) eqn:Hj; [|discriminate]. apply Nat.ltb_lt in Hj. cbn [option_map] in E. assert (E' := f_equal (fun o => match o with Some x => x | None => (0, 0)%R end) E). cbn beta iota in E'.
    destruct (Nat.lt_trichotomy i j) as [H|[H|H]]; [|exact H|]; exfalso.
    + apply (Hinj i j); [lia|]. exact E'.
    + apply (Hinj j i); [lia|]. symmetry. exact E'.
  - intros x y H. apply in_map_iff in H. destruct H as (m & E & _). assert (Ex := f_equal fst E). assert (Ey := f_equal snd E). cbn [fst snd] in Ex, Ey. rewrite <- Ex, <- Ey.
    set (a := (2 * PI / INR n * INR m)%R). pose proof (sin2_cos2 a) as H. unfold Rsqr in H.
    replace (radius * sin a * (radius * sin a) + radius * cos a * (radius * cos a))%R with (radius * radius * (sin a * sin a + cos a * cos a))%R by ring.
    rewrite H. ring.
Qed.
Print Assumptions C51_ring.
Example C51_case : exists locs, ring_locs 10%R 8 = Ok locs /\ nth_error locs 2 = Some (10, 0)%R.
Proof.
  eexists. split; [reflexivity|]. cbn [map seq nth_error]. f_equal.
  replace (2 * PI / INR 8 * INR 2)%R with (PI / 2)%R by (cbn; field). rewrite sin_PI2, cos_PI2. f_equal; ring.
Qed.
