(** Property C61: the annealing sampler on a population of particles, with and without
    resampling, is properly weighted and never raises. *)
From Coq Require Import Lra.
From Verif Require Import SpecSampler SpecTotal SpecGibbs Thm_Annealing Thm_Particles Thm_Sampler InstancesPop.
Open Scope nat_scope.

(** [pb] is an annealing problem of any length run on N particles in each of B batch entries,
    [pb1] what each particle does, [q] the program vsmc builds for [K] steps, for either kind
    of objective and with or without resampling.  For every batch entry, the expectation over
    all random draws and resampling offsets of the particle average of exp(log_weight) times any
    function [h] of a particle's values and output is the integral of [h] against the
    unnormalised density of the last target. *)
Theorem C61_annealed_population : forall (LV LS : lib) (HL : lib_laws LV) (M : measures LS) (ML : measure_laws M)
    (W : array_view LV) N B (P : population LV LS) (PL : population_laws W N B P M)
    (pb : problem LV) (pb1 : problem LS) (Z : nat -> Sp M) (detach_dist : D LV -> D LV)
    (loss_fn : out LV -> res (T LV)) (avo resample : bool) base K q c kws st b h,
  0 < N -> b < B -> copies_problem W N B P pb pb1 -> path_spaces M Z pb1 ->
  (forall rep' b' p, lj_ok LV rep' b' p = true) ->
  (forall d v, tensor_equal LV (logp LV d v) (logp LV (detach_dist d) v) = true) ->
  (forall d s b', s < N -> b' < B -> dpart P s b' (detach_dist d) = dpart P s b' d) ->
  (forall o px, out_px o = Some px -> exists l, loss_fn o = Ok l) ->
  identities pb base K ->
  kwarg "sample_dims" VNone kws = VInt 0 -> kwarg "batch_dim" VNone kws = VInt 1 -> plain_call kws -> at_rest st ->
  vsmc detach_dist base (pb_targets pb K) (pb_forwards pb K) (pb_reverses pb K) loss_fn avo resample (systematic W false) = Ok q ->
  expectation P (run q c kws st) (weighted_average W N P b h) =
  integral M (Z K) (fun z => (path_density M pb1 K z * h [(gname K, z)] (VDict [(gname K, VTensor z)]))%R).
Proof.
  intros LV LS HL M ML W N B P PL pb pb1 Z dd loss_fn avo resample base K q c kws st b h HN Hb HC HZ Hlj H1 H2 Hl Hid Hsd Hbd [Hwf Hpl] Hr Hq.
  destruct (identities_wlog pb base K Hid) as (base' & t & r' & Ho1 & Ho2 & Ho3 & E). rewrite <- E in Hq.
  assert (HC' : copies_problem W N B P (relabel pb t r') pb1) by (destruct HC; constructor; assumption).
  destruct (sampler_claim HL M ML W N B P PL HN (relabel pb t r') pb1 HC' Z HZ (kwarg "reparameterized" (VBool true) kws) (Hlj _) dd H1 H2 loss_fn Hl avo base' Ho1 Ho2 Ho3 resample K c q Hq kws st) as [HA HB].
  { split; [split; [exact Hwf|]|split; [exact Hsd|split; [exact Hbd|reflexivity]]]. apply clash_false. intros k Hk Hi. exact (Hpl k Hi Hk). }
  { exact Hr. }
  rewrite <- (HB b (fun z => h [(gname K, z)] (VDict [(gname K, VTensor z)])) Hb).
  apply (EV_ext M W N B P PL). intros x Hx. destruct (HA x Hx) as (r & w & v & _ & _ & _ & o & s' & -> & _ & Ht & Hv & _ & Ho & Hw).
  unfold weighted_average, avg1. cbn [fst]. rewrite Ht, Ho. cbn [particle_values map fst snd vmap]. rewrite Hv. reflexivity.
Qed.
Print Assumptions C61_annealed_population.

(** In particular the expected average weight is the normalising constant of the last target. *)
Theorem C61_normalising_constant : forall (LV LS : lib) (HL : lib_laws LV) (M : measures LS) (ML : measure_laws M)
    (W : array_view LV) N B (P : population LV LS) (PL : population_laws W N B P M)
    (pb : problem LV) (pb1 : problem LS) (Z : nat -> Sp M) (detach_dist : D LV -> D LV)
    (loss_fn : out LV -> res (T LV)) (avo resample : bool) base K q c kws st b,
  0 < N -> b < B -> copies_problem W N B P pb pb1 -> path_spaces M Z pb1 ->
  (forall rep' b' p, lj_ok LV rep' b' p = true) ->
  (forall d v, tensor_equal LV (logp LV d v) (logp LV (detach_dist d) v) = true) ->
  (forall d s b', s < N -> b' < B -> dpart P s b' (detach_dist d) = dpart P s b' d) ->
  (forall o px, out_px o = Some px -> exists l, loss_fn o = Ok l) ->
  identities pb base K ->
  kwarg "sample_dims" VNone kws = VInt 0 -> kwarg "batch_dim" VNone kws = VInt 1 -> plain_call kws -> at_rest st ->
  vsmc detach_dist base (pb_targets pb K) (pb_forwards pb K) (pb_reverses pb K) loss_fn avo resample (systematic W false) = Ok q ->
  expectation P (run q c kws st) (weighted_average W N P b (fun _ _ => 1%R)) = integral M (Z K) (path_density M pb1 K).
Proof.
  intros. erewrite C61_annealed_population; eauto. apply (int_ext _ ML). intros z. ring.
Qed.
Print Assumptions C61_normalising_constant.

(** No execution raises: every run returns a trace with the one node g_K, whose value is the
    output, and (after at least one step) one finite log-weight per particle. *)
Theorem C61_never_raises : forall (LV LS : lib) (HL : lib_laws LV) (M : measures LS) (ML : measure_laws M)
    (W : array_view LV) N B (P : population LV LS) (PL : population_laws W N B P M)
    (pb : problem LV) (pb1 : problem LS) (Z : nat -> Sp M) (detach_dist : D LV -> D LV)
    (loss_fn : out LV -> res (T LV)) (avo resample : bool) base K q c kws st x,
  0 < N -> copies_problem W N B P pb pb1 -> path_spaces M Z pb1 ->
  (forall rep' b' p, lj_ok LV rep' b' p = true) ->
  (forall d v, tensor_equal LV (logp LV d v) (logp LV (detach_dist d) v) = true) ->
  (forall d s b', s < N -> b' < B -> dpart P s b' (detach_dist d) = dpart P s b' d) ->
  (forall o px, out_px o = Some px -> exists l, loss_fn o = Ok l) ->
  identities pb base K ->
  kwarg "sample_dims" VNone kws = VInt 0 -> kwarg "batch_dim" VNone kws = VInt 1 -> plain_call kws -> at_rest st ->
  vsmc detach_dist base (pb_targets pb K) (pb_forwards pb K) (pb_reverses pb K) loss_fn avo resample (systematic W false) = Ok q ->
  possible W N B (run q c kws st) x ->
  exists o r, fst x = Ok o /\ out_trace o = [(gname K, r)] /\ out_output o = VDict [(gname K, VTensor (rv_value r))] /\
    particles W N B (rv_value r) /\ (0 < K -> log_weights W N B (out_lw o)).
Proof.
  intros LV LS HL M ML W N B P PL pb pb1 Z dd loss_fn avo resample base K q c kws st x HN HC HZ Hlj H1 H2 Hl Hid Hsd Hbd [Hwf Hpl] Hr Hq Hx.
  destruct (identities_wlog pb base K Hid) as (base' & t & r' & Ho1 & Ho2 & Ho3 & E). rewrite <- E in Hq.
  assert (HC' : copies_problem W N B P (relabel pb t r') pb1) by (destruct HC; constructor; assumption).
  destruct (sampler_claim HL M ML W N B P PL HN (relabel pb t r') pb1 HC' Z HZ (kwarg "reparameterized" (VBool true) kws) (Hlj _) dd H1 H2 loss_fn Hl avo base' Ho1 Ho2 Ho3 resample K c q Hq kws st) as [HA _].
  { split; [split; [exact Hwf|]|split; [exact Hsd|split; [exact Hbd|reflexivity]]]. apply clash_false. intros k Hk Hi. exact (Hpl k Hi Hk). }
  { exact Hr. }
  destruct (HA x Hx) as (r & w & v & ((Gv & _) & _) & _ & Hw' & o & s' & -> & _ & Ht & Hv & _ & Ho & Hw).
  exists o, r. split; [reflexivity|]. split; [exact Ht|]. split; [rewrite Ho, Hv; reflexivity|]. split; [exact Gv|]. rewrite Hw. exact Hw'.
Qed.
Print Assumptions C61_never_raises.

(** ** an instance: two particles, coins; the first target is a coin, the second has the
    unnormalised density exp(2 x) on {0, 1}; the kernels are the coins the points select *)
Definition scaleV (x : ten) : ten := Ten (mkArr (shape (arr_of x)) (fun i => Fin (2 * fin (at_ (arr_of x) i)))).
Definition pickV (x : ten) (s b : nat) : bool := if Req_EM_T (hd 0%R (slice s b x)) 1 then true else false.
Definition pick1 (x : list R) : bool := if Req_EM_T (hd 0%R x) 1 then true else false.
Definition pathV : problem PopL :=
  mkProblem (L := PopL) (fun _ _ => false) false
    (fun k => if k =? 1 then TDist (L := PopL) (fun _ _ => true) true else TDens (L := PopL) scaleV)
    (fun _ => pickV) (fun _ => true) (fun _ => pickV) (fun _ => false) (fun k => 3 * k) (fun k => 3 * k + 1) (fun k => 3 * k + 2).
Definition path1 : problem OneL :=
  mkProblem (L := OneL) false false
    (fun k => if k =? 1 then TDist (L := OneL) true true else TDens (L := OneL) (map (Rmult 2)))
    (fun _ => pick1) (fun _ => true) (fun _ => pick1) (fun _ => false) (fun k => 3 * k) (fun k => 3 * k + 1) (fun k => 3 * k + 2).
Definition callV : dict (pyval ten) := [("sample_dims", VInt 0); ("batch_dim", VInt 1)].
Definition samplerV : res (inf PopL) :=
  vsmc (L := PopL) (fun d => d) 10 (pb_targets pathV 2) (pb_forwards pathV 2) (pb_reverses pathV 2) (fun o => Ok (out_lw o)) false true (systematic PopV false).
Example C61_hypotheses :
  copies_problem PopV 2 1 PopP pathV path1 /\ path_spaces coins (fun _ => tt) path1 /\ plain_call callV /\ at_rest (st0 PopL) /\
  identities pathV 10 2 /\
  exists q, samplerV = Ok q.
Proof.
  split; [|split; [|split; [|split; [|split]]]].
  - constructor; try reflexivity. intros k. unfold copies_target. cbn [pb_target pathV path1]. destruct (k =? 1); [reflexivity|].
    intros v [Ht Hs]. split.
    + split; [split; [reflexivity|exact Hs]|]. intros i _. eexists. reflexivity.
    + intros s b _ _. cbn. unfold slice. cbn [arr_of scaleV shape at_]. rewrite map_map. reflexivity.
  - constructor; reflexivity.
  - split; [repeat constructor; cbn; intuition congruence|]. intros k Hk Hd. cbn in Hk, Hd. intuition congruence.
  - split; [intros i; reflexivity|intros d tr tr2; eexists; reflexivity].
  - unfold identities. cbn [pathV pb_oid_t pb_oid_r]. repeat split; intros k Hk; lia.
  - eexists. reflexivity.
Qed.
(** ... the expected average weight of the two particles, with resampling after the first
    step, is 1 + e^2 *)
Example C61_case : exists q, samplerV = Ok q /\
  expectation PopP (run q VNone callV (st0 PopL)) (weighted_average PopV 2 PopP 0 (fun _ _ => 1%R)) = (1 + exp 2)%R.
Proof.
  destruct C61_hypotheses as (H1 & H2 & H3 & H4 & H5 & q & Hq). exists q. split; [exact Hq|].
  rewrite (C61_normalising_constant PopL OneL PopL_laws coins coins_laws PopV 2 1 PopP PopP_laws pathV path1 (fun _ => tt) (fun d => d)
    (fun o => Ok (out_lw o)) false true 10 2 q VNone callV (st0 PopL) 0); try assumption; try reflexivity; try lia; [|intros o px _; eexists; reflexivity].
  cbn [integral coins]. unfold path_density. cbn [path1 pb_target Nat.eqb target_logp coins lw map].
  unfold rsum. cbn [fold_right]. rewrite Rmult_0_r, Rmult_1_r, !Rplus_0_r, exp_0. reflexivity.
Qed.
