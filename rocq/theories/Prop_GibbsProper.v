(** C82: the Gibbs sampler of the bouncing-digits experiment is properly weighted. *)
From Coq Require Import Lra.
From Verif Require Import SpecGibbsProper Thm_SweepsProper Thm_GibbsProper Prop_Sweeps Prop_Proper Thm_Systematic.
Close Scope R_scope.
Close Scope Z_scope.
Open Scope nat_scope.

(** Sweeps over a video of [T_] frames, with a resampling step that leaves the particles as they are: for
    every number of sweeps and frames, every encoder and decoder, and every function [h] of the positions
    and the digits, the expectation of exp(log_weight) * h(positions, digits of the last sweep) is the sum
    over all positions and digits of p(frames, positions, digits) * h(positions, digits). *)
Theorem C82_sweeps_properly_weighted : forall (L : lib) (M : measures L) (N : nets L) same wmean node_sum rs T_ c kws s num_sweeps fr
    one where_space what_space h,
  gibbs_run N same rs T_ c kws s -> dget "frames" c = Some (VTensor fr) -> n_frames L N fr = T_ -> (forall x, same x x = true) ->
  measure_laws M -> stacked M N one where_space what_space -> idle rs ->
  expect M (run (gibbs_sweeps L N wmean node_sum rs num_sweeps T_) (VDict c) kws s) (weighted_sample M T_ num_sweeps h) =
  over_positions M where_space T_ (fun ws => integral M what_space (fun z => (video_mass M N fr ws z * h ws z)%R)).
Proof.
  intros L M N same wmean node_sum rs T_ c kws s n fr one Wsp Dsp h [H1 H2 H3 _ H5 _ H6 H7 H8 H9] Hf Hn Hsame ML HS Hi.
  exact (gibbs_proper H1 H2 H3 M ML N same wmean node_sum rs Hi H5 one Wsp Dsp HS T_ H6 c fr Hf Hn Hsame n kws s h H7 (conj H8 H9)).
Qed.
Print Assumptions C82_sweeps_properly_weighted.

(** Its expected weight is the evidence p(frames) for every number of sweeps. *)
Theorem C82_evidence : forall (L : lib) (M : measures L) (N : nets L) same wmean node_sum rs T_ c kws s num_sweeps fr
    one where_space what_space,
  gibbs_run N same rs T_ c kws s -> dget "frames" c = Some (VTensor fr) -> n_frames L N fr = T_ -> (forall x, same x x = true) ->
  measure_laws M -> stacked M N one where_space what_space -> idle rs ->
  expect M (run (gibbs_sweeps L N wmean node_sum rs num_sweeps T_) (VDict c) kws s) (weighted_sample M T_ num_sweeps (fun _ _ => 1%R)) =
  over_positions M where_space T_ (fun ws => integral M what_space (video_mass M N fr ws)).
Proof.
  intros L M N same wmean node_sum rs T_ c kws s n fr one Wsp Dsp Hg Hf Hn Hsame ML HS Hi.
  rewrite (C82_sweeps_properly_weighted L M N same wmean node_sum rs T_ c kws s n fr one Wsp Dsp _ Hg Hf Hn Hsame ML HS Hi).
  apply (positions_ext M ML N Wsp T_ (gr_pos _ _ _ _ _ _ _ Hg) fr Hn). intros ws _. apply (int_ext M ML). intros z. ring.
Qed.
Print Assumptions C82_evidence.

(** Before the first sweep nothing is resampled: with any resampler, importance sampling with the encoders
    is properly weighted. *)
Theorem C82_initial_properly_weighted : forall (L : lib) (M : measures L) (N : nets L) same wmean node_sum rs T_ c kws s fr
    one where_space what_space h,
  gibbs_run N same rs T_ c kws s -> dget "frames" c = Some (VTensor fr) -> n_frames L N fr = T_ ->
  measure_laws M -> stacked M N one where_space what_space ->
  expect M (run (gibbs_sweeps L N wmean node_sum rs 0 T_) (VDict c) kws s) (weighted_sample M T_ 0 h) =
  over_positions M where_space T_ (fun ws => integral M what_space (fun z => (video_mass M N fr ws z * h ws z)%R)).
Proof.
  intros L M N same wmean node_sum rs T_ c kws s fr one Wsp Dsp h [H1 H2 H3 _ H5 _ H6 H7 H8 H9] Hf Hn ML HS.
  exact (initial_E H1 H2 H3 M ML N same wmean one Wsp Dsp HS T_ H6 c fr Hf Hn H5 kws s h H7 (conj H8 H9)).
Qed.
Print Assumptions C82_initial_properly_weighted.

(** ** an instance: positions and digits are three-sided dice.  A distribution is a list of dice, each
    showing its number with probability 1/2; a value is the number whose digits to the base 3 they show. *)
Open Scope Z_scope.
Fixpoint throw (d : list Z) (v : Z) : Z :=
  match d with [] => 0 | x :: d' => (if Z.eqb (v mod 3) (x mod 3) then -1 else -2) + throw d' (v / 3) end.
Definition CupL : lib := {|
  T := Z; D := list Z;
  tzero := 0; tadd := Z.add; tsub := Z.sub; detach := fun x => x;
  is_tensor := fun _ => true; to_tensor := fun x => x;
  eq_zero := fun x => Ok (Z.eqb x 0); tensor_equal := Z.eqb;
  bsum := fun _ _ x => x;
  logp := throw;
  lj_ok := fun _ _ _ => true;
  order := fun l => rev l
|}.
Fixpoint over_cup (k : nat) (f : Z -> R) : R :=
  match k with
  | O => f 0
  | S k' => (over_cup k' (fun v => f (0 + 3 * v)%Z) + over_cup k' (fun v => f (1 + 3 * v)%Z) + over_cup k' (fun v => f (2 + 3 * v)%Z))%R
  end.
Definition cup : measures CupL := mkMeasures CupL (fun x : Z => (IZR x * ln 2)%R) nat (@length Z) over_cup.
Lemma CupL_laws : lib_laws CupL.
Proof. constructor; cbn; intros; try lia. symmetry. apply Permutation_rev. Qed.
Lemma cup_ext : forall k f g, (forall v, f v = g v) -> over_cup k f = over_cup k g.
Proof. induction k as [|k IH]; intros f g H; cbn [over_cup]; [apply H|]. f_equal; [f_equal|]; apply IH; intros v; apply H. Qed.
Lemma cup_scale : forall k c f, over_cup k (fun v => (c * f v)%R) = (c * over_cup k f)%R.
Proof. induction k as [|k IH]; intros c f; cbn [over_cup]; [reflexivity|]. rewrite !IH. ring. Qed.
Lemma cup_add : forall k f g, over_cup k (fun v => (f v + g v)%R) = (over_cup k f + over_cup k g)%R.
Proof. induction k as [|k IH]; intros f g; cbn [over_cup]; [reflexivity|]. rewrite !IH. ring. Qed.
Lemma cup_swap : forall k k' (f : Z -> Z -> R), over_cup k (fun v => over_cup k' (fun w => f v w)) = over_cup k' (fun w => over_cup k (fun v => f v w)).
Proof.
  induction k as [|k IH]; intros k' f; cbn [over_cup]; [reflexivity|]. rewrite !cup_add, !(IH k'). reflexivity.
Qed.
Lemma cup_normalised : forall d, over_cup (length d) (fun v => exp (IZR (throw d v) * ln 2)) = 1%R.
Proof.
  induction d as [|x d IH]; [cbn; rewrite Rmult_0_l; apply exp_0|]. cbn [length over_cup throw].
  assert (H : forall a, 0 <= a < 3 -> over_cup (length d) (fun v => exp (IZR ((if (a + 3 * v) mod 3 =? x mod 3 then -1 else -2) + throw d ((a + 3 * v) / 3)) * ln 2)) =
    exp (IZR (if a =? x mod 3 then -1 else -2) * ln 2)).
  { intros a Ha. rewrite (cup_ext _ _ (fun v => (exp (IZR (if a =? x mod 3 then -1 else -2) * ln 2) * exp (IZR (throw d v) * ln 2))%R)).
    - rewrite cup_scale, IH. ring.
    - intros v. rewrite (Z.mul_comm 3 v), Z.mod_add, Z.div_add by lia. rewrite Z.mod_small, Z.div_small, Z.add_0_l by lia.
      rewrite plus_IZR, Rmult_plus_distr_r, exp_plus. reflexivity. }
  rewrite !H by lia.
  assert (Hx : x mod 3 = 0 \/ x mod 3 = 1 \/ x mod 3 = 2) by (pose proof (Z.mod_pos_bound x 3); lia).
  destruct Hx as [-> | [-> | ->]]; cbn [Z.eqb Pos.eqb]; rewrite dice_half, dice_quarter; lra.
Qed.
Lemma cup_laws : measure_laws cup.
Proof.
  constructor; cbn; intros.
  - ring.
  - rewrite plus_IZR. ring.
  - rewrite minus_IZR. ring.
  - reflexivity.
  - reflexivity.
  - apply cup_ext; assumption.
  - apply cup_scale.
  - apply cup_swap.
  - apply cup_normalised.
Qed.

(** two objects per frame, the second one's die depending on where the first one is; each frame's positions
    near those of the frame before; a video of [n] frames is seen through one die *)
Definition cup_obj (fr : Z) (kr : option Z) (t : Z) (acc : list Z) : Z := fr + match kr with Some z => z | None => 0 end + t + fold_right Z.add 0 acc.
Definition cup_nets (n : nat) : nets CupL := mkNets CupL (fun _ => n) 2%nat
  (fun fr kr t acc => [cup_obj fr kr t acc])
  (fun zs => match zs with [a; b] => a + 3 * b | _ => 0 end)
  (fun w i => match i with O => w mod 3 | _ => w / 3 end)
  (fun fr kr t zs => map (fun i => cup_obj fr kr t (firstn i zs)) (seq 0 2))
  (fun fr ws => [fr + fold_right Z.add 0 ws])
  [0; 1] (fun w => [w; w / 3]) [2] (fun ws z => [fold_right Z.add 0 ws + z]) false.
Definition cup_rs : resampler CupL := mkRS (L := CupL) sig_model (fun tr lw _ => Leaf (Ok (tr, lw))).
Definition cup_st : st CupL := mkSt (L := CupL) [] [] (apg_hook (L := CupL) Z.eqb) [].
Definition cup_c : dict (pyval Z) := [("frames", VTensor 1)].
Lemma cup_stacked n : stacked cup (cup_nets n) (fun v => 0 <= v < 3) 2%nat 1%nat.
Proof.
  constructor.
  - intros fr kr t acc f g H. cbn. rewrite !H by lia. reflexivity.
  - intros fr kr t zs Hl Ho. destruct zs as [|a [|b [|]]]; try discriminate. inversion Ho as [|? ? Ha Ho']; subst. inversion Ho' as [|? ? Hb _]; subst.
    cbn [objects_mass coor_obj cup_nets app]. unfold pmass. cbn [logp CupL coor_all coor_cat cup_nets seq map firstn lw cup throw]. rewrite !Z.add_0_r.
    rewrite (Z.mul_comm 3 b), Z.mod_add, Z.div_add, (Z.div_small a), (Z.mod_small a), Z.add_0_l by lia.
    rewrite plus_IZR, Rmult_plus_distr_r, exp_plus. ring.
  - intros fr kr t g. cbn. ring.
  - intros zs Hl Ho. destruct zs as [|a [|b [|]]]; try discriminate. inversion Ho as [|? ? Ha Ho']; subst. inversion Ho' as [|? ? Hb _]; subst.
    cbn [coor_slice coor_cat cup_nets n_objects seq map]. rewrite (Z.mul_comm 3 b), Z.mod_add, Z.div_add, (Z.div_small a), (Z.mod_small a), Z.add_0_l by lia. reflexivity.
  - intros fr ws. reflexivity.
Qed.
Example C82_hypotheses : forall n, (1 <= n)%nat ->
  gibbs_run (L := CupL) (cup_nets n) Z.eqb cup_rs n cup_c [] cup_st /\ dget "frames" cup_c = Some (VTensor 1) /\ n_frames CupL (cup_nets n) 1 = n /\
  (forall x, Z.eqb x x = true) /\ measure_laws cup /\ stacked cup (cup_nets n) (fun v => 0 <= v < 3) 2%nat 1%nat /\ idle cup_rs.
Proof.
  intros n Hn. split; [|repeat split; try reflexivity; try apply cup_laws; try apply cup_stacked; apply Z.eqb_refl].
  constructor.
  - exact CupL_laws.
  - constructor; reflexivity.
  - reflexivity.
  - intros tr lw kws items lw2 Hwf H a. inversion H. subst. rewrite as_trace_id by exact Hwf. reflexivity.
  - reflexivity.
  - exists 1. split; reflexivity.
  - exact Hn.
  - split; [constructor|]. intros k _ [].
  - reflexivity.
  - reflexivity.
Qed.

(** one frame, any number of sweeps: the expected weight is the probability of the frame *)
Example C82_case : forall num_sweeps,
  expect cup (run (L := CupL) (gibbs_sweeps CupL (cup_nets 1) (fun lw _ => lw) (fun x => x) cup_rs num_sweeps 1) (VDict cup_c) [] cup_st)
    (weighted_sample cup 1 num_sweeps (fun _ _ => 1%R)) = (21 / 64)%R.
Proof.
  intros n. destruct (C82_hypotheses 1 (le_n _)) as (H1 & H2 & H3 & H4 & H5 & H6 & H7).
  rewrite (C82_evidence CupL cup (cup_nets 1) Z.eqb _ _ _ 1 cup_c [] cup_st n 1 _ _ _ H1 H2 H3 H4 H5 H6 H7).
  cbn. unfold video_mass, walk_mass, pmass. cbn. rewrite dice_half, dice_quarter.
  replace (exp (-3 * ln 2)) with (1 / 8)%R; [replace (exp (-4 * ln 2)) with (1 / 16)%R; [lra|]|].
  - replace (-4 * ln 2)%R with (-2 * ln 2 + -2 * ln 2)%R by ring. rewrite exp_plus, dice_quarter. lra.
  - replace (-3 * ln 2)%R with (-2 * ln 2 + -1 * ln 2)%R by ring. rewrite exp_plus, dice_quarter, dice_half. lra.
Qed.
