(** C54, C55: the simulated data set of /repo/experiments/apgs/dataset/simulator.py. *)
From Coq Require Import Lra Lia Ascii.
From Verif Require Import SpecSimulator Simulator KeyFacts.
Open Scope R_scope.

(** ** C54: trajectories *)
Lemma set1_same f a x : set1 f a x a = x.
Proof. unfold set1. rewrite Nat.eqb_refl. reflexivity. Qed.
Lemma set1_other f a x b : b <> a -> set1 f a x b = f b.
Proof. unfold set1. intros H. apply Nat.eqb_neq in H. rewrite H. reflexivity. Qed.
Lemma set2_same A t a x : set2 A t a x t a = x.
Proof. unfold set2. rewrite Nat.eqb_refl. apply set1_same. Qed.
Lemma set2_other A t a x u b : u <> t \/ b <> a -> set2 A t a x u b = A u b.
Proof. unfold set2. destruct (Nat.eqb_spec u t); [|reflexivity]. intros [H|H]; [contradiction|apply set1_other; exact H]. Qed.
Lemma set_row_same A t r : set_row A t r t = r.
Proof. unfold set_row. rewrite Nat.eqb_refl. reflexivity. Qed.
Lemma set_row_other A t r u : u <> t -> set_row A t r u = A u.
Proof. unfold set_row. intros H. apply Nat.eqb_neq in H. rewrite H. reflexivity. Qed.

Lemma axis t a (xn : row) (V : plane) x v : inside x -> -2 <= v <= 2 -> xn a = x + v -> V t a = v ->
  exists xn' V', high t a (low t a (xn, V)) = (xn', V') /\ bounces x v (xn' a) (V' t a) /\
    (forall b, b <> a -> xn' b = xn b) /\ (forall u b, u <> t \/ b <> a -> V' u b = V u b).
Proof.
  unfold inside. intros Hx Hv Ex Ev. unfold low. rewrite Ex, Ev. destruct (Rlt_dec (x + v) (-1)) as [H|H].
  - unfold high. rewrite set1_same. rewrite Rabs_right by lra.
    destruct (Rlt_dec 1 _) as [H1|H1]; [lra|]. eexists _, _. split; [reflexivity|]. rewrite set1_same, set2_same.
    split; [constructor; exact H|]. split; [intros b Hb; apply set1_other; exact Hb|intros u b Hb; apply set2_other; exact Hb].
  - unfold high. rewrite Ex, Ev. destruct (Rlt_dec 1 _) as [H1|H1].
    + eexists _, _. split; [reflexivity|]. rewrite set1_same, set2_same. rewrite Rabs_right by lra.
      split; [constructor; exact H1|]. split; [intros b Hb; apply set1_other; exact Hb|intros u b Hb; apply set2_other; exact Hb].
    + eexists _, _. split; [reflexivity|]. rewrite Ex, Ev. split; [constructor; unfold inside; lra|]. split; reflexivity.
Qed.

Lemma step_spec (X V : plane) (t : nat) : (forall a, (a < 2)%nat -> inside (X t a) /\ -2 <= V t a <= 2) ->
  let (X', V') := traj_step (X, V) t in
  (forall u, u <> S t -> X' u = X u) /\ (forall u a, (a < 2)%nat -> u <> t -> u <> S t -> V' u a = V u a) /\
  (forall a, (a < 2)%nat -> bounces (X t a) (V t a) (X' (S t) a) (V' t a) /\ V' (S t) a = V' t a).
Proof.
  intros H. destruct (H 0%nat ltac:(lia)) as (H0 & H0'). destruct (H 1%nat ltac:(lia)) as (H1 & H1').
  unfold traj_step. cbv beta iota. rewrite (Nat.add_1_r t).
  destruct (axis t 0 (fun a => X t a + V t a) V (X t 0%nat) (V t 0%nat) H0 H0' eq_refl eq_refl) as (xn & V1 & E & B0 & F0 & G0).
  unfold row, plane in *. rewrite E.
  destruct (axis t 1 xn V1 (X t 1%nat) (V t 1%nat) H1 H1') as (xn' & V2 & E' & B1 & F1 & G1).
  { apply F0. lia. } { apply G0. lia. }
  unfold row, plane in *. rewrite E'. split; [intros u Hu; apply set_row_other; exact Hu|]. split.
  - intros u a Ha Hu Hu'. rewrite set_row_other by exact Hu'. rewrite G1 by (left; exact Hu). apply G0. left. exact Hu.
  - intros a Ha. rewrite !set_row_same. rewrite set_row_other by lia. split; [|reflexivity].
    destruct a as [|[|a]]; [|exact B1|lia]. rewrite F1 by lia. rewrite G1 by (right; lia). exact B0.
Qed.

Lemma bounces_inside x v x' v' : inside x -> -2 <= v <= 2 -> bounces x v x' v' -> inside x'.
Proof. unfold inside. intros Hx Hv H. inversion H; subst; unfold inside in *; lra. Qed.
Lemma bounces_speed x v x' v' : bounces x v x' v' -> Rabs v' = Rabs v.
Proof. intros H. inversion H; subst; [reflexivity|apply Rabs_Ropp|apply Rabs_Ropp]. Qed.
Lemma abs_le2 v : Rabs v <= 2 <-> -2 <= v <= 2.
Proof. split; intros H; [pose proof (Rle_abs v); pose proof (Rle_abs (- v)); rewrite Rabs_Ropp in *; lra|apply Rabs_le; lra]. Qed.

Lemma traj_inv dv angle init n :
  (forall a, (a < 2)%nat -> inside (init a)) -> (forall a, (a < 2)%nat -> Rabs (initial_velocity dv angle a) <= 2) ->
  let (X, V) := fold_left traj_step (seq 0 n) (set_row zeros2 0 init, set_row zeros2 0 (initial_velocity dv angle)) in
  exists W : plane, forall a, (a < 2)%nat ->
    trajectory (S n) (init a) (initial_velocity dv angle a) (fun t => X t a) (fun t => W t a) /\
    (forall t, (t <= n)%nat -> inside (X t a) /\ Rabs (W t a) = Rabs (initial_velocity dv angle a)) /\
    (forall t, (t < n)%nat -> V t a = W (S t) a) /\ V n a = W n a.
Proof.
  intros Hi Hv. induction n as [|n IH].
  - cbn [fold_left seq]. exists (fun _ => initial_velocity dv angle). intros a Ha. unfold trajectory. rewrite !set_row_same.
    split; [split; [reflexivity|split; [reflexivity|lia]]|]. split; [|split; [lia|reflexivity]].
    intros t Ht. replace t with 0%nat by lia. rewrite set_row_same. auto.
  - rewrite seq_S, fold_left_app. cbn [fold_left plus].
    destruct (fold_left traj_step (seq 0 n) _) as [X V]. destruct IH as (W & HW).
    pose proof (step_spec X V n) as Hs.
    assert (Hc : forall a, (a < 2)%nat -> inside (X n a) /\ -2 <= V n a <= 2).
    { intros a Ha. destruct (HW a Ha) as (_ & H1 & _ & H3). destruct (H1 n ltac:(lia)) as (H1' & H2). split; [exact H1'|].
      apply abs_le2. rewrite H3, H2. apply Hv. exact Ha. }
    specialize (Hs Hc). destruct (traj_step (X, V) n) as [X' V']. destruct Hs as (HX & HV & HB).
    exists (fun t => if Nat.eqb t (S n) then V' n else W t). intros a Ha.
    destruct (HW a Ha) as ((H1 & H2 & H3) & H4 & H5 & H6). destruct (HB a Ha) as (B1 & B2). rewrite H6 in B1.
    assert (Hw : forall t, (t <= n)%nat -> (if Nat.eqb t (S n) then V' n else W t) a = W t a).
    { intros t Ht. destruct (Nat.eqb_spec t (S n)); [lia|reflexivity]. }
    assert (Hwn : (if Nat.eqb (S n) (S n) then V' n else W (S n)) a = V' n a) by (rewrite Nat.eqb_refl; reflexivity).
    split; [split; [|split]|split; [|split]].
    + rewrite HX by lia. exact H1.
    + rewrite Hw by lia. exact H2.
    + intros t Ht. rewrite (Hw t) by lia. destruct (Nat.eq_dec t n) as [->|Hn].
      * rewrite Hwn, (HX n) by lia. exact B1.
      * rewrite (Hw (S t)) by lia. rewrite !HX by lia. apply H3. lia.
    + intros t Ht. destruct (Nat.eq_dec t (S n)) as [->|Hn].
      * rewrite Hwn. destruct (H4 n ltac:(lia)) as (I & S). split.
        -- eapply bounces_inside; [exact I| |exact B1]. apply abs_le2. rewrite S. apply Hv. exact Ha.
        -- rewrite (bounces_speed _ _ _ _ B1). exact S.
      * rewrite Hw, HX by lia. apply H4. lia.
    + intros t Ht. destruct (Nat.eq_dec t n) as [->|Hn].
      * rewrite Hwn. reflexivity.
      * rewrite (Hw (S t)) by lia. rewrite HV by lia. apply H5. lia.
    + rewrite Hwn. exact B2.
Qed.

Lemma velocity_bound dv angle a : Rabs dv <= 2 -> Rabs (initial_velocity dv angle a) <= 2.
Proof.
  intros H. unfold initial_velocity. pose proof (COS_bound angle). pose proof (SIN_bound angle). pose proof (Rabs_pos dv).
  destruct a; rewrite Rabs_mult; match goal with |- Rabs ?t * _ <= _ => assert (Rabs t <= 1) by (apply Rabs_le; lra); pose proof (Rabs_pos t) end; nra.
Qed.

(** The object follows the motion of a ball bouncing in [-1,1] x [-1,1], started at the given
    position with a velocity of length dv.  The returned velocity of frame t is the one with
    which the object *arrives* in frame t+1 (after the bounce, if any), and for the last frame
    the one with which it arrived there. *)
Theorem C54_bounces (timesteps : nat) (dv angle : R) (init : row) (X V : plane) :
  Rabs dv <= 2 -> inside (init 0%nat) -> inside (init 1%nat) ->
  sim_trajectory timesteps dv angle init = Ok (X, V) ->
  exists W : plane,
    trajectory timesteps (init 0%nat) (dv * cos angle) (fun t => X t 0%nat) (fun t => W t 0%nat) /\
    trajectory timesteps (init 1%nat) (dv * sin angle) (fun t => X t 1%nat) (fun t => W t 1%nat) /\
    forall a, (a < 2)%nat ->
      (forall t, (S t < timesteps)%nat -> V t a = W (S t) a) /\ V (timesteps - 1)%nat a = W (timesteps - 1)%nat a.
Proof.
  intros Hdv H0 H1 H. destruct timesteps as [|n]; [discriminate|]. cbn [sim_trajectory] in H. injection H as H.
  assert (Hi : forall a, (a < 2)%nat -> inside (init a)) by (intros [|[|a]] Ha; [exact H0|exact H1|lia]).
  pose proof (traj_inv dv angle init n Hi (fun a _ => velocity_bound dv angle a Hdv)) as HI. rewrite H in HI.
  destruct HI as (W & HW). exists W. rewrite !(Rmult_comm dv). split; [apply (HW 0%nat); lia|]. split; [apply (HW 1%nat); lia|].
  intros a Ha. destruct (HW a Ha) as (_ & _ & H3 & H4). replace (S n - 1)%nat with n by lia. split; [intros t Ht; apply H3; lia|exact H4].
Qed.
Print Assumptions C54_bounces.

(** Every position lies in the frame and every velocity has length dv. *)
Theorem C54_inside (timesteps : nat) (dv angle : R) (init : row) (X V : plane) (t : nat) :
  Rabs dv <= 2 -> inside (init 0%nat) -> inside (init 1%nat) ->
  sim_trajectory timesteps dv angle init = Ok (X, V) -> (t < timesteps)%nat ->
  inside (X t 0%nat) /\ inside (X t 1%nat) /\ V t 0%nat ^ 2 + V t 1%nat ^ 2 = dv ^ 2.
Proof.
  intros Hdv H0 H1 H Ht. destruct timesteps as [|n]; [discriminate|]. cbn [sim_trajectory] in H. injection H as H.
  assert (Hi : forall a, (a < 2)%nat -> inside (init a)) by (intros [|[|a]] Ha; [exact H0|exact H1|lia]).
  pose proof (traj_inv dv angle init n Hi (fun a _ => velocity_bound dv angle a Hdv)) as HI. rewrite H in HI.
  destruct HI as (W & HW).
  assert (Hv : forall a, (a < 2)%nat -> inside (X t a) /\ Rabs (V t a) = Rabs (initial_velocity dv angle a)).
  { intros a Ha. destruct (HW a Ha) as (_ & H2 & H3 & H4). split; [apply H2; lia|].
    destruct (Nat.eq_dec t n) as [->|Hn]; [rewrite H4; apply H2; lia|rewrite H3 by lia; apply H2; lia]. }
  destruct (Hv 0%nat ltac:(lia)) as (I0 & A0). destruct (Hv 1%nat ltac:(lia)) as (I1 & A1).
  split; [exact I0|]. split; [exact I1|].
  rewrite <- (pow2_abs (V t 0%nat)), <- (pow2_abs (V t 1%nat)), A0, A1, !pow2_abs. cbn [initial_velocity].
  pose proof (sin2_cos2 angle) as P. unfold Rsqr in P. replace (dv ^ 2) with (dv ^ 2 * 1) by ring. rewrite <- P. ring.
Qed.
Print Assumptions C54_inside.

(** The velocities are not those with which the frames are left: with speed 1 to the right from
    x = 1/2, the first returned velocity is already the one after the bounce, so that position 1 is
    not position 0 moved by velocity 0, with or without a reflection. *)
Theorem C54_leaving_velocity_refuted : exists timesteps dv angle init X V,
  inside (init 0%nat) /\ inside (init 1%nat) /\ sim_trajectory timesteps dv angle init = Ok (X, V) /\ (1 < timesteps)%nat /\
  V 0%nat 0%nat <> dv * cos angle /\ forall v', ~ bounces (X 0%nat 0%nat) (V 0%nat 0%nat) (X 1%nat 0%nat) v'.
Proof.
  exists 2%nat, 1, 0, (fun a => match a with O => / 2 | _ => 0 end).
  destruct (sim_trajectory 2 1 0 (fun a => match a with O => / 2 | _ => 0 end)) as [[X V]|e] eqn:E; [|discriminate].
  exists X, V. unfold inside. split; [lra|]. split; [lra|]. split; [reflexivity|]. split; [lia|].
  destruct (C54_bounces 2 1 0 (fun a => match a with O => / 2 | _ => 0 end) X V ltac:(rewrite Rabs_R1; lra) ltac:(unfold inside; lra) ltac:(unfold inside; lra) E) as (W & (T1 & T2 & T3) & _ & HV).
  destruct (HV 0%nat ltac:(lia)) as (HV0 & _). rewrite (HV0 0%nat (le_n 2)). specialize (T3 0%nat (le_n 2)). cbv beta in *.
  rewrite T1, T2, cos_0 in T3. rewrite T1. rewrite cos_0.
  inversion T3 as [x v Hin E1 E2 E3 E4|x v Hin E1 E2 E3 E4|x v Hin E1 E2 E3 E4]; subst; unfold inside in *; try lra.
  split; [lra|]. intros v' B. inversion B as [x v Hb F1 F2 F3 F4|x v Hb F1 F2 F3 F4|x v Hb F1 F2 F3 F4]; lra.
Qed.
Print Assumptions C54_leaving_velocity_refuted.

(** Whenever the rejection loop of sim_trajectories ends, the first three objects start more than
    sqrt(1/2) apart, and every object of the result starts in the accepted draw. *)
Lemma rejection_spec draws x0 : rejection draws = Some x0 -> In x0 draws /\ accepted x0 = true.
Proof.
  induction draws as [|x rest IH]; cbn [rejection]; [discriminate|]. destruct (accepted x) eqn:E.
  - intros H. injection H as <-. split; [left; reflexivity|exact E].
  - intros H. destruct (IH H). split; [right|]; assumption.
Qed.
Lemma all_traj timesteps dv angles x0 objs l : all_trajectories timesteps dv angles x0 objs = Ok l ->
  Forall2 (fun i xv => sim_trajectory timesteps dv (angles i) (x0 i) = Ok xv) objs l.
Proof.
  revert l. induction objs as [|i objs IH]; cbn [all_trajectories]; intros l H; [injection H as <-; constructor|].
  destruct (sim_trajectory _ _ _ _) as [xv|e] eqn:E; [|discriminate]. cbn [rbind] in H.
  destruct (all_trajectories _ _ _ _ objs) as [l'|e] eqn:E'; [|discriminate]. cbn [rmap] in H. injection H as <-.
  constructor; [exact E|apply IH; reflexivity].
Qed.
Lemma Forall2_seq {A} (P : nat -> A -> Prop) n k l : Forall2 P (seq k n) l ->
  length l = n /\ forall i x, nth_error l i = Some x -> P (k + i)%nat x.
Proof.
  revert k l. induction n as [|n IH]; intros k l H; inversion H as [|? y ? l' H1 H2]; subst; [split; [reflexivity|intros [|i] x; discriminate]|].
  destruct (IH _ _ H2) as (L & N). split; [cbn; rewrite L; reflexivity|].
  intros [|i] x Hx; [injection Hx as <-; rewrite Nat.add_0_r; exact H1|].
  replace (k + S i)%nat with (S k + i)%nat by lia. apply N. exact Hx.
Qed.
Theorem C54_start_apart (num_tjs timesteps : nat) (dv : R) (angles : nat -> R) (draws : list plane) (XV : list (plane * plane)) :
  sim_trajectories num_tjs timesteps dv angles draws = Some (Ok XV) ->
  length XV = num_tjs /\ (3 <= num_tjs)%nat /\
  exists x0, In x0 draws /\
    (forall i X V, nth_error XV i = Some (X, V) -> X 0%nat = x0 i /\ sim_trajectory timesteps dv (angles i) (x0 i) = Ok (X, V)) /\
    forall i j, (i < 3)%nat -> (j < 3)%nat -> i <> j ->
      / 2 < (x0 i 0%nat - x0 j 0%nat) ^ 2 + (x0 i 1%nat - x0 j 1%nat) ^ 2.
Proof.
  unfold sim_trajectories. destruct (Nat.ltb_spec num_tjs 3) as [Hn|Hn].
  { destruct (small_rejection num_tjs draws); discriminate. }
  destruct (rejection draws) as [x0|] eqn:E; [|discriminate]. cbn [option_map]. intros H. injection H as H.
  apply rejection_spec in E. destruct E as (Hin & Hacc). apply all_traj in H.
  apply Forall2_seq in H. destruct H as (HL & HN). split; [exact HL|]. split; [exact Hn|]. exists x0. split; [exact Hin|]. split.
  - intros i X V Hx. apply HN in Hx. cbn [plus] in Hx. split; [|exact Hx].
    assert (X0 : forall n s, fst (fold_left traj_step (seq 0 n) s) 0%nat = fst s 0%nat).
    { clear. induction n as [|n IH]; intros s; [reflexivity|]. rewrite seq_S, fold_left_app. cbn [fold_left plus].
      rewrite <- (IH s). destruct (fold_left traj_step (seq 0 n) s) as [A B]. unfold traj_step. destruct (high _ _ _) as [a b]. cbn [fst].
      apply set_row_other. lia. }
    destruct timesteps as [|n]; [discriminate|]. cbn [sim_trajectory] in Hx. injection Hx as Hx.
    specialize (X0 n (set_row zeros2 0 (x0 i), set_row zeros2 0 (initial_velocity dv (angles i)))). rewrite Hx in X0. exact X0.
  - unfold accepted, a2, dist2 in Hacc. repeat (destruct (Rlt_dec _ _) in Hacc; [|discriminate]).
    intros [|[|[|i]]] [|[|[|j]]] Hi Hj Hij; try lia; lra.
Qed.
Print Assumptions C54_start_apart.

(** With four objects the fourth may start on top of the first. *)
Theorem C54_all_apart_refuted : exists num_tjs timesteps dv angles draws XV X V X' V',
  sim_trajectories num_tjs timesteps dv angles draws = Some (Ok XV) /\
  nth_error XV 0 = Some (X, V) /\ nth_error XV 3 = Some (X', V') /\ (forall a, X 0%nat a = X' 0%nat a) /\
  (forall x0 i a, In x0 draws -> inside (x0 i a)).
Proof.
  set (x0 := fun i a => match i, a with 1%nat, O => 1 | 2%nat, S O => 1 | _, _ => 0 end : R).
  exists 4%nat, 1%nat, 1, (fun _ => 0), [x0].
  assert (E : accepted x0 = true).
  { unfold accepted, dist2, a2, x0. repeat (destruct (Rlt_dec _ _) as [?|n]; [|exfalso; apply n; lra]). reflexivity. }
  unfold sim_trajectories. cbn [Nat.ltb Nat.leb rejection]. rewrite E. cbn.
  eexists _, _, _, _, _. split; [reflexivity|]. split; [reflexivity|]. split; [reflexivity|]. split; [intros a; reflexivity|].
  intros x1 i a [<-|[]]. unfold inside, x0. destruct i as [|[|[|i]]]; destruct a as [|[|a]]; lra.
Qed.
Print Assumptions C54_all_apart_refuted.

Theorem C54_too_few_objects (num_tjs timesteps : nat) (dv : R) (angles : nat -> R) (draws : list plane) r :
  (num_tjs < 3)%nat -> sim_trajectories num_tjs timesteps dv angles draws = Some r -> r = Err IndexError.
Proof.
  intros Hn. unfold sim_trajectories. apply Nat.ltb_lt in Hn. rewrite Hn.
  destruct (small_rejection num_tjs draws) as [e|] eqn:E; [|discriminate]. cbn. intros H. injection H as <-. f_equal.
  revert E. induction draws as [|x rest IH]; cbn [small_rejection]; [discriminate|].
  destruct (Nat.ltb num_tjs 2); [intros H; injection H as <-; reflexivity|].
  destruct (Rlt_dec _ _); [intros H; injection H as <-; reflexivity|exact IH].
Qed.
Print Assumptions C54_too_few_objects.

(** A case: the defaults (dv = 0.1, ten frames) from a corner region. *)
Example C54_case : exists X V, sim_trajectory 10 (/ 10) 0 (fun _ => 99 / 100) = Ok (X, V) /\ inside (X 9%nat 0%nat) /\ X 1%nat 0%nat = 91 / 100.
Proof.
  destruct (sim_trajectory 10 (/ 10) 0 (fun _ => 99 / 100)) as [[X V]|e] eqn:E; [|discriminate].
  exists X, V. split; [reflexivity|].
  assert (Hd : Rabs (/ 10) <= 2) by (rewrite Rabs_right; lra).
  split; [eapply C54_inside; [exact Hd| | |exact E|lia]; unfold inside; lra|].
  destruct (C54_bounces 10 (/ 10) 0 (fun _ => 99 / 100) X V Hd ltac:(unfold inside; lra) ltac:(unfold inside; lra) E) as (W & (T1 & T2 & T3) & _).
  specialize (T3 0%nat ltac:(lia)). cbv beta in *. rewrite T1, T2, cos_0 in T3. inversion T3; unfold inside in *; lra.
Qed.

(** ** C55: the files of the data set *)
Open Scope nat_scope.

Fixpoint zsum (l : list Z) : Z := match l with [] => 0%Z | z :: l' => (z + zsum l')%Z end.
Lemma zsum_app a b : zsum (a ++ b) = (zsum a + zsum b)%Z.
Proof. induction a as [|x a IH]; [reflexivity|]. cbn [zsum app]. rewrite IH. lia. Qed.

Lemma save_loop_spec timesteps objects chunk : (1 <= chunk)%Z -> forall left fuel counter files, (Z.to_nat left <= fuel)%nat ->
  exists n sizes, save_loop fuel timesteps objects chunk left counter files =
      Some (Ok (files ++ combine (map (chunk_file timesteps objects) (seq counter n)) sizes)) /\
    length sizes = n /\ zsum sizes = Z.max left 0 /\
    (forall z, In z sizes -> (1 <= z <= chunk)%Z) /\ (forall z, In z (removelast sizes) -> z = chunk).
Proof.
  intros Hc left fuel. revert left. induction fuel as [|fuel IH]; intros left counter files Hf.
  - assert ((left <= 0)%Z) by lia. cbn [save_loop]. destruct (Z.leb_spec left 0); [|lia].
    exists 0, []. cbn. rewrite app_nil_r. split; [reflexivity|]. split; [reflexivity|]. split; [lia|]. split; intros z [].
  - cbn [save_loop]. destruct (Z.leb_spec left 0) as [H|H].
    { exists 0, []. cbn. rewrite app_nil_r. split; [reflexivity|]. split; [reflexivity|]. split; [lia|]. split; intros z []. }
    cbv zeta. destruct (Z.leb_spec (Z.min chunk left) 0) as [H1|H1]; [lia|].
    destruct (IH (Z.max (left - Z.min chunk left) 0)%Z (S counter) (files ++ [(chunk_file timesteps objects counter, Z.min chunk left)]) ltac:(lia))
      as (n & sizes & E & HL & HS & HB & HR).
    exists (S n), (Z.min chunk left :: sizes). rewrite E, <- app_assoc. cbn [app seq map combine length zsum].
    split; [reflexivity|]. split; [f_equal; exact HL|]. split; [rewrite HS; lia|]. split.
    + intros z [<-|Hz]; [lia|apply HB; exact Hz].
    + destruct sizes as [|y sizes]; [intros z []|]. intros z [<-|Hz]; [|apply HR; exact Hz].
      assert (1 <= y)%Z by (apply HB; left; reflexivity).
      assert (0 <= zsum sizes)%Z.
      { assert (forall l, (forall z, In z l -> (1 <= z)%Z) -> (0 <= zsum l)%Z) as HH.
        { clear. induction l as [|x l IH]; intros Hl; [cbn; lia|]. cbn [zsum]. pose proof (Hl x (or_introl eq_refl)). pose proof (IH (fun z Hz => Hl z (or_intror Hz))). lia. }
        apply HH. intros z Hz. apply HB. right. exact Hz. }
      cbn [zsum] in HS. lia.
Qed.

(** The names are those of parts 1, 2, ..., n, pairwise different; the sizes add up to the number of
    sequences asked for; every file but the last holds exactly chunk_size sequences, the last between
    1 and chunk_size.  The loop ends whatever num_seqs is: as many rounds as sequences are enough. *)
Lemma chunk_file_inj t o i j : chunk_file t o i = chunk_file t o j -> i = j.
Proof.
  unfold chunk_file. intros H.
  assert (HA : forall a b c : string, (a ++ b)%string = (a ++ c)%string -> b = c).
  { clear. induction a; cbn; intros b c H; [exact H|]. injection H as H. apply IHa. exact H. }
  repeat (apply HA in H).
  assert (HD : forall n, has_char "."%char (show n) = false).
  { intros n. destruct (has_char "."%char (show n)) eqn:E; [|reflexivity]. apply show_digits in E. discriminate. }
  apply split_first in H; try apply HD. apply show_inj. tauto.
Qed.
Lemma combine_map_fst {A B} (l : list A) (m : list B) : length l = length m -> map fst (combine l m) = l.
Proof. revert m. induction l as [|x l IH]; intros [|y m] H; try discriminate; [reflexivity|]. cbn. f_equal. apply IH. injection H as H. exact H. Qed.
Lemma combine_map_snd {A B} (l : list A) (m : list B) : length l = length m -> map snd (combine l m) = m.
Proof. revert m. induction l as [|x l IH]; intros [|y m] H; try discriminate; [reflexivity|]. cbn. f_equal. apply IH. injection H as H. exact H. Qed.
Theorem C55_chunks (fuel timesteps objects : nat) (chunk_size num_seqs : Z) :
  (1 <= chunk_size)%Z -> (num_seqs <= Z.of_nat fuel)%Z ->
  exists files, sim_save_data fuel timesteps objects chunk_size num_seqs = Some (Ok files) /\
    map fst files = map (chunk_file timesteps objects) (seq 1 (length files)) /\ NoDup (map fst files) /\
    zsum (map snd files) = Z.max num_seqs 0 /\
    (forall f n, In (f, n) files -> (1 <= n <= chunk_size)%Z) /\
    (forall n, In n (removelast (map snd files)) -> n = chunk_size).
Proof.
  intros Hc Hf. destruct (save_loop_spec timesteps objects chunk_size Hc num_seqs fuel 1 [] ltac:(lia)) as (n & sizes & E & HL & HS & HB & HR).
  eexists. split; [exact E|]. cbn [app].
  assert (Hlen : length (map (chunk_file timesteps objects) (seq 1 n)) = length sizes) by (rewrite map_length, seq_length; congruence).
  rewrite combine_map_fst by exact Hlen. rewrite combine_map_snd by exact Hlen.
  rewrite combine_length, Hlen, Nat.min_id, HL. split; [reflexivity|]. split.
  { clear. generalize 1. induction n as [|n IH]; intros k; [constructor|]. cbn [seq map]. constructor; [|apply IH].
    intros Hin. apply in_map_iff in Hin. destruct Hin as (j & Ej & Hj). apply chunk_file_inj in Ej. apply in_seq in Hj. lia. }
  split; [exact HS|]. split; [|exact HR]. intros f m Hin. apply HB. apply in_combine_r in Hin. exact Hin.
Qed.
Print Assumptions C55_chunks.

Theorem C55_chunk_size_must_be_positive (fuel timesteps objects : nat) (chunk_size num_seqs : Z) :
  (chunk_size <= 0)%Z -> (0 < num_seqs)%Z -> (num_seqs <= Z.of_nat fuel)%Z ->
  sim_save_data fuel timesteps objects chunk_size num_seqs = Some (Err RuntimeError).
Proof.
  intros Hc Hn Hf. unfold sim_save_data. destruct fuel as [|fuel]; [lia|]. cbn [save_loop].
  destruct (Z.leb_spec num_seqs 0); [lia|]. cbv zeta. destruct (Z.leb_spec (Z.min chunk_size num_seqs) 0); [reflexivity|lia].
Qed.
Print Assumptions C55_chunk_size_must_be_positive.

(** The shapes of one sequence are pairwise different, and as many as there are objects. *)
Theorem C55_shapes_distinct (num_shapes num_objects : nat) (perm shapes : list nat) :
  Permutation perm (seq 0 num_shapes) -> pick_shapes perm num_objects = Ok shapes ->
  length shapes = num_objects /\ NoDup shapes /\ forall i, In i shapes -> i < num_shapes.
Proof.
  unfold pick_shapes. intros HP. destruct (Nat.ltb_spec (length (firstn num_objects perm)) num_objects) as [H|H]; [discriminate|].
  intros E. injection E as <-. pose proof (firstn_le_length num_objects perm). split; [rewrite firstn_length in *; lia|].
  assert (HN : NoDup perm) by (eapply Permutation_NoDup; [symmetry; exact HP|apply seq_NoDup]).
  rewrite <- (firstn_skipn num_objects perm) in HN. split.
  - clear -HN. induction (firstn num_objects perm) as [|x l IH]; [constructor|]. cbn in HN. inversion HN; subst. constructor; [|auto].
    intros Hx. apply H1. apply in_or_app. left. exact Hx.
  - intros i Hi. assert (In i perm) by (rewrite <- (firstn_skipn num_objects perm); apply in_or_app; left; exact Hi).
    eapply Permutation_in in H1; [|exact HP]. apply in_seq in H1. lia.
Qed.
Print Assumptions C55_shapes_distinct.
Theorem C55_too_few_shapes (num_shapes num_objects : nat) (perm : list nat) :
  Permutation perm (seq 0 num_shapes) -> num_shapes < num_objects -> pick_shapes perm num_objects = Err IndexError.
Proof.
  intros HP H. unfold pick_shapes. apply Permutation_length in HP. rewrite seq_length in HP. rewrite firstn_length, HP.
  destruct (Nat.ltb_spec (Nat.min num_objects num_shapes) num_objects); [reflexivity|lia].
Qed.
Print Assumptions C55_too_few_shapes.

(** One simulator object can load its shapes once: sim_save_data or viz_data after either of them
    raises, as soon as the directory holds a usable file. *)
Theorem C55_load_once (files files' : nat) (sh : shapes_attr) :
  load_resize_shapes files (ShapesList 0) = Ok sh -> sh = ShapesTensor files /\ 0 < files /\
  (0 < files' -> load_resize_shapes files' sh = Err AttributeError).
Proof.
  cbn [load_resize_shapes plus]. destruct (Nat.eqb_spec files 0) as [H|H]; [discriminate|]. intros E. injection E as <-.
  split; [reflexivity|]. split; [lia|]. intros H'. cbn. destruct (Nat.eqb_spec files' 0); [lia|reflexivity].
Qed.
Print Assumptions C55_load_once.

Example C55_case : sim_save_data 10 7 3 4 10 =
  Some (Ok [("seq-timesteps=7-objects=3-p1.pt", 4%Z); ("seq-timesteps=7-objects=3-p2.pt", 4%Z); ("seq-timesteps=7-objects=3-p3.pt", 2%Z)]).
Proof. reflexivity. Qed.
Example C55_shapes_case : pick_shapes [3;0;2;1] 3 = Ok [3;0;2] /\ Permutation [3;0;2;1] (seq 0 4).
Proof.
  split; [reflexivity|]. cbn [seq]. apply NoDup_Permutation; [repeat constructor; cbn; lia|repeat constructor; cbn; lia|].
  intros x. cbn. intuition lia.
Qed.
