(** C44 in floating point: the inverse temperatures as they are computed. *)
From Coq Require Import Reals Lra Lia Psatz.
From Flocq Require Import Core Relative.
From Verif Require Import TemperingFloats FloatFacts Thm_Annealing Prop_Tempering.
Open Scope R_scope.

Definition tiny64 : R := / IZR (2 ^ 1075).
Lemma r64_err1 x : 0 <= x -> x - (eps64 * x + tiny64) <= r64 x <= x + (eps64 * x + tiny64).
Proof.
  intros Hx. destruct (relative_error_N_FLT'_ex radix2 (-1074) 53 P53 (fun x => negb (Z.even x)) x) as (d & e & Hd & He & _ & E).
  unfold r64. change ZnearestE with (Znearest (fun x => negb (Z.even x))). rewrite E. clear E.
  assert (H1 : u_ro radix2 53 = eps64).
  { change (u_ro radix2 53) with (/ 2 * bpow radix2 (Zneg 52)). unfold eps64. rewrite pow2. change (2 ^ 53)%Z with (2 * 2 ^ 52)%Z. rewrite mult_IZR, Rinv_mult. reflexivity. }
  assert (H2 : / 2 * bpow radix2 (Zneg 1074) = tiny64).
  { unfold tiny64. rewrite pow2. change (2 ^ 1075)%Z with (2 * 2 ^ 1074)%Z. rewrite mult_IZR. rewrite Rinv_mult. reflexivity. }
  rewrite H2 in He. rewrite H1 in Hd. assert (H3 : eps64 / (1 + eps64) <= eps64) by (unfold eps64; cbn [Z.pow Z.pow_pos Pos.iter Z.mul Pos.mul]; lra).
  assert (Hd' : Rabs d <= eps64) by lra. clear Hd H3. apply Rabs_le_inv in Hd'. apply Rabs_le_inv in He.
  assert (-eps64 * x <= d * x <= eps64 * x) by (split; apply Rmult_le_compat_r; lra). lra.
Qed.
(** [u]: a common small error, 2^-50 *)
Definition u : R := / 1125899906842624.
Lemma tiny_u : 0 < tiny64 <= u * / 4194304 /\ 0 < tiny <= u * / 4194304 /\ eps64 <= u / 8.
Proof.
  assert (H : forall a b : Z, (0 < b <= a)%Z -> 0 < / IZR a <= / IZR b).
  { intros a b Hab. assert (0 < IZR b) by (apply (IZR_lt 0); lia). assert (IZR b <= IZR a) by (apply IZR_le; lia).
    split; [apply Rinv_0_lt_compat; lra|apply Rinv_le_contravar; lra]. }
  assert (E : u * / 4194304 = / IZR (2 ^ 72)).
  { unfold u. rewrite <- Rinv_mult. f_equal. change (2 ^ 72)%Z with (1125899906842624 * 4194304)%Z. rewrite mult_IZR. reflexivity. }
  split; [rewrite E; apply H; split; [reflexivity|]; vm_compute; discriminate|].
  split; [rewrite E; apply H; split; [reflexivity|]; vm_compute; discriminate|].
  unfold eps64, u. cbn [Z.pow Z.pow_pos Pos.iter Z.mul Pos.mul]. lra.
Qed.

Section Entries.
  Context (m : nat) (Hm : (1 <= m)%nat) (Hm' : (Z.of_nat m < 2 ^ 21)%Z).
  Notation M := (INR m). Notation h := (r64 (1 / M)).
  Lemma M_range : 1 <= M <= 2097151.
  Proof. split; [apply (le_INR 1); exact Hm|]. rewrite INR_IZR_INZ. apply IZR_le. change (2 ^ 21)%Z with 2097152%Z in Hm'. lia. Qed.
  Lemma step_range : (1 - u) / M <= h <= (1 + u) / M.
  Proof.
    pose proof M_range as HM. destruct tiny_u as (H1 & _ & H3).
    assert (H0 : / 2097151 <= 1 / M) by (unfold Rdiv; rewrite Rmult_1_l; apply Rinv_le_contravar; lra).
    pose proof (r64_err1 (1 / M) ltac:(lra)) as H. unfold Rdiv in *. rewrite Rmult_1_l in *.
    assert (Hu : 0 < u) by (unfold u; lra).
    assert (H4 : eps64 * / M <= u / 8 * / M) by (apply Rmult_le_compat_r; lra).
    assert (H5 : u * / 4194304 <= u * (/ 2 * / M)) by (apply Rmult_le_compat_l; lra).
    unfold Rdiv in *. nra.
  Qed.
  Lemma multiple b : (b <= m)%nat -> 0 <= r64 (INR b * h) /\ Rabs (r64 (INR b * h) - INR b / M) <= 2 * u.
  Proof.
    intros Hb. pose proof M_range as HM. pose proof step_range as Hh. destruct tiny_u as (H1 & _ & H3). assert (Hu : 0 < u <= / 1000000) by (unfold u; lra).
    assert (HI : 0 < / M) by (apply Rinv_0_lt_compat; lra).
    assert (Hb0 : 0 <= INR b <= M) by (split; [apply pos_INR|apply le_INR; exact Hb]).
    assert (Hx : 0 <= INR b * / M <= 1).
    { split; [nra|]. apply (Rmult_le_reg_r M); [lra|]. rewrite Rmult_assoc, Rinv_l; lra. }
    assert (Hy : INR b / M - u <= INR b * h <= INR b / M + u).
    { unfold Rdiv in *. split; [apply Rle_trans with (INR b * ((1 - u) * / M)); [nra|apply Rmult_le_compat_l; lra]|].
      apply Rle_trans with (INR b * ((1 + u) * / M)); [apply Rmult_le_compat_l; lra|nra]. }
    assert (H0 : 0 <= INR b * h) by (apply Rmult_le_pos; [lra|]; apply Rle_trans with ((1 - u) / M); [unfold Rdiv; nra|apply Hh]).
    split; [apply r64_ge0, H0|]. pose proof (r64_err1 _ H0) as H. unfold Rdiv in Hy |- *.
    assert (eps64 * (INR b * h) <= u / 8 * 2) by (apply Rmult_le_compat; [unfold eps64; cbn [Z.pow Z.pow_pos Pos.iter Z.mul Pos.mul]; lra|lra|lra|lra]).
    apply Rabs_le. lra.
  Qed.
  Lemma entry base k : (k <= m)%nat -> (base k <= k)%nat -> Rabs (arange_entry base h k - INR k / M) <= / 4194304.
  Proof.
    intros Hk Hb. unfold arange_entry. pose proof M_range as HM. destruct tiny_u as (H1 & H2 & H3). assert (Hu : 0 < u <= / 1000000000000) by (unfold u; lra).
    assert (HI : 0 < / M) by (apply Rinv_0_lt_compat; lra).
    assert (Hx : 0 <= INR (base k) * / M <= 1 /\ 0 <= INR (k - base k) * / M <= 1 /\ INR k * / M <= 1 /\ INR k * / M = INR (base k) * / M + INR (k - base k) * / M).
    { assert (H : forall b, (b <= m)%nat -> 0 <= INR b * / M <= 1).
      { intros b Hb'. assert (0 <= INR b <= M) by (split; [apply pos_INR|apply le_INR; exact Hb']).
        split; [nra|]. apply (Rmult_le_reg_r M); [lra|]. rewrite Rmult_assoc, Rinv_l; lra. }
      split; [apply H; lia|]. split; [apply H; lia|]. split; [apply H; lia|]. rewrite <- Rmult_plus_distr_r, <- plus_INR. f_equal. f_equal. lia. }
    destruct (multiple (base k) ltac:(lia)) as [P1 E1]. destruct (multiple (k - base k) ltac:(lia)) as [P3 E3].
    set (t1 := r64 (INR (base k) * h)) in *. set (t3 := r64 (INR (k - base k) * h)) in *. unfold Rdiv in E1, E3 |- *.
    apply Rabs_le_inv in E1. apply Rabs_le_inv in E3.
    pose proof (r32_err t1 P1) as E2. pose proof (r32_ge0 t1 P1) as P2. set (t2 := r32 t1) in *.
    pose proof (r64_err1 (t2 + t3) ltac:(lra)) as E4. pose proof (r64_ge0 (t2 + t3) ltac:(lra)) as P4. set (t4 := r64 (t2 + t3)) in *.
    pose proof (r32_err t4 P4) as E5. set (t5 := r32 t4) in *.
    unfold eps in *. assert (eps64 * (t2 + t3) <= u / 8 * 4) by (apply Rmult_le_compat; [unfold eps64; cbn [Z.pow Z.pow_pos Pos.iter Z.mul Pos.mul]; lra|lra|lra|lra]).
    apply Rabs_le. lra.
  Qed.
  (** the arange has an entry for every target: at least m entries *)
  Lemma entries : (m <= Z.to_nat (ceil (r64 (1 / h))))%nat.
  Proof.
    pose proof M_range as HM. pose proof step_range as Hh. assert (Hu : 0 < u <= / 1000000000000) by (unfold u; lra).
    assert (HI : 0 < / M) by (apply Rinv_0_lt_compat; lra).
    assert (Hpos : 0 < h) by (apply Rlt_le_trans with ((1 - u) / M); [unfold Rdiv; nra|apply Hh]).
    assert (Hf : f64 (M - / 2)).
    { apply generic_format_FLT. exists (Float radix2 (2 * Z.of_nat m - 1) (-1)).
      - unfold F2R. cbn [Fnum Fexp]. rewrite minus_IZR, mult_IZR, <- INR_IZR_INZ. change (bpow radix2 (-1)) with (/ 2). lra.
      - cbn [Fnum]. change (radix_val radix2) with 2%Z. change (2 ^ 21)%Z with 2097152%Z in Hm'. change (2 ^ 53)%Z with 9007199254740992%Z. lia.
      - cbn [Fexp]. lia. }
    assert (Hle : M - / 2 <= 1 / h).
    { apply (Rmult_le_reg_r h); [exact Hpos|]. unfold Rdiv. rewrite Rmult_assoc, Rinv_l, Rmult_1_r by lra.
      apply Rle_trans with ((M - / 2) * ((1 + u) / M)); [apply Rmult_le_compat_l; lra|].
      apply (Rmult_le_reg_r M); [lra|]. unfold Rdiv. rewrite !Rmult_assoc, Rinv_l, Rmult_1_r by lra.
      unfold u in *. nra. }
    apply r64_mono in Hle. rewrite (r64_id _ Hf) in Hle. unfold ceil. set (x := r64 (1 / h)) in *.
    assert (up (- x) <= 1 - Z.of_nat m)%Z; [|lia].
    destruct (archimed (- x)) as [A1 A2]. assert (IZR (up (- x)) < IZR (2 - Z.of_nat m)).
    { rewrite minus_IZR, <- INR_IZR_INZ. lra. }
    apply lt_IZR in H. lia.
  Qed.
End Entries.
Close Scope R_scope.
Open Scope nat_scope.

Lemma path_eq32 {V} (left right : tdensity V) (f : nat -> R) n : forall a rest,
  (forall k, a <= k < a + n -> (0 < f k < 1)%R) ->
  rmapM (fun kb => tempered (gname (fst kb)) left right (snd kb)) (combine (seq a n) (map f (seq a n) ++ rest))
  = Ok (map (fun k => Temp (gname k) left right (logit (f k))) (seq a n)).
Proof.
  induction n as [|n IH]; intros a rest H; cbn [seq map combine rmapM app]; [reflexivity|].
  unfold tempered at 1. cbn [fst snd]. pose proof (H a ltac:(lia)) as Ha.
  destruct (Rlt_dec _ _); [|lra]. destruct (Rlt_dec _ _); [|lra]. cbn [rbind]. rewrite IH by (intros k Hk; apply H; lia). reflexivity.
Qed.
Lemma fractions n k : 0 < k < n - 1 -> (Z.of_nat n <= 2 ^ 21)%Z ->
  (/ 2097151 <= INR k / INR (n - 1) /\ INR k / INR (n - 1) <= 1 - / 2097151 /\ INR (S k) / INR (n - 1) = INR k / INR (n - 1) + / INR (n - 1) /\ / 2097151 <= / INR (n - 1))%R.
Proof.
  intros Hk Hn. pose proof (M_range (n - 1) ltac:(lia) ltac:(lia)) as HM.
  assert (HI : (/ 2097151 <= / INR (n - 1))%R) by (apply Rinv_le_contravar; lra).
  assert (Hk' : (1 <= INR k <= INR (n - 1) - 1)%R).
  { split; [apply (le_INR 1); lia|]. replace (n - 1) with (S (n - 2)) by lia. rewrite S_INR. assert (INR k <= INR (n - 2))%R by (apply le_INR; lia). lra. }
  assert (E : (INR (n - 1) * / INR (n - 1) = 1)%R) by (apply Rinv_r; lra).
  unfold Rdiv. rewrite S_INR. split; [nra|]. split; [nra|]. split; [ring|exact HI].
Qed.
(** Up to two million targets: whatever the division of the arange into blocks, the path has n
    targets between [left] and [right], with temperatures strictly between 0 and 1, strictly
    increasing, and 2^-22 close to k/(n-1). *)
Theorem C44_binary32 (V : Type) (base : nat -> nat) (left right : tdensity V) (n : nat) :
  (forall k, base k <= k) -> 2 <= n -> (Z.of_nat n <= 2 ^ 21)%Z ->
  exists path (beta : nat -> R),
    anneal_between32 base left right n = Ok path /\
    length path = n /\ nth_error path 0 = Some left /\ nth_error path (n - 1) = Some right /\
    (forall k, 0 < k < n - 1 -> exists g, nth_error path k = Some g /\ d_name g = gname k /\
       forall v, log_prob g v = ((1 - beta k) * log_prob left v + beta k * log_prob right v)%R) /\
    (forall k, 0 < k < n - 1 -> f32 (beta k) /\ (0 < beta k < 1)%R /\ (Rabs (beta k - INR k / INR (n - 1)) <= / 4194304)%R) /\
    (forall j k, 0 < j < k -> k < n - 1 -> (beta j < beta k)%R).
Proof.
  intros Hbase Hn Hn'. set (beta := arange_entry base (r64 (1 / INR (n - 1)))).
  assert (He : forall k, k <= n - 1 -> (Rabs (beta k - INR k / INR (n - 1)) <= / 4194304)%R).
  { intros k Hk. apply entry; [lia|lia|exact Hk|apply Hbase]. }
  assert (Hb : forall k, 0 < k < n - 1 -> (0 < beta k < 1)%R).
  { intros k Hk. pose proof (He k ltac:(lia)) as E. apply Rabs_le_inv in E. destruct (fractions n k Hk Hn') as (F1 & F2 & _). lra. }
  exists ([left] ++ map (fun k => Temp (gname k) left right (logit (beta k))) (seq 1 (n - 2)) ++ [right]), beta.
  assert (Hl : length ([left] ++ map (fun k => Temp (gname k) left right (logit (beta k))) (seq 1 (n - 2)) ++ [right]) = n).
  { rewrite !app_length, map_length, seq_length; cbn; lia. }
  split.
  { unfold anneal_between32, arange32. fold beta. pose proof (entries (n - 1) ltac:(lia) ltac:(lia)) as Hc.
    set (c := Z.to_nat _) in *. replace c with ((n - 1) + (c - (n - 1))) by lia. rewrite seq_app, map_app.
    replace (seq 0 (n - 1)) with (0 :: seq 1 (n - 2)) by (replace (n - 1) with (S (n - 2)) by lia; reflexivity).
    cbn [map app tl]. rewrite path_eq32 by (intros k Hk; apply Hb; lia). cbn [rbind].
    change (left :: map (fun k => Temp (gname k) left right (logit (beta k))) (seq 1 (n - 2)) ++ [right])
      with ([left] ++ map (fun k => Temp (gname k) left right (logit (beta k))) (seq 1 (n - 2)) ++ [right]). rewrite Hl, Nat.eqb_refl. reflexivity. }
  split; [exact Hl|]. split; [reflexivity|]. split.
  { rewrite app_assoc, nth_error_app2; rewrite app_length, map_length, seq_length; cbn [length]; [|lia].
    replace (n - 1 - (1 + (n - 2))) with 0 by lia. reflexivity. }
  split.
  { intros k Hk. exists (Temp (gname k) left right (logit (beta k))). split.
    - destruct k as [|k]; [lia|]. cbn [app nth_error]. rewrite nth_error_app1 by (rewrite map_length, seq_length; lia).
      rewrite nth_error_map, nth_error_seq'. replace (k <? n - 2) with true by (symmetry; apply Nat.ltb_lt; lia). reflexivity.
    - split; [reflexivity|]. intros v. cbn [log_prob]. rewrite sigmoid_logit by (apply Hb; lia). ring. }
  split; [intros k Hk; split; [apply f32_r32|]; split; [apply Hb, Hk|apply He; lia]|].
  intros j k Hj Hk. pose proof (He j ltac:(lia)) as Ej. pose proof (He k ltac:(lia)) as Ek. apply Rabs_le_inv in Ej. apply Rabs_le_inv in Ek.
  destruct (fractions n j ltac:(lia) Hn') as (_ & _ & F3 & F4).
  assert (INR (S j) / INR (n - 1) <= INR k / INR (n - 1))%R.
  { apply Rmult_le_compat_r; [left; lra|apply le_INR; lia]. }
  lra.
Qed.
Print Assumptions C44_binary32.
(** the arange may have one entry more than in exact arithmetic (with 50 targets its last entry
    is about 1); the zip with the names drops it *)
Example C44_binary32_hypotheses : (forall k, k <= k) /\ (forall k, k - k mod 8 <= k) /\ 2 <= 50 /\ (Z.of_nat 50 <= 2 ^ 21)%Z.
Proof. repeat split; intros; try lia. Qed.
