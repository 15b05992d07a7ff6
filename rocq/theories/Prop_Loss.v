(** C19_same_run and C75: the loss of a nested sampler is the sum of the objectives of its steps. *)
From Verif Require Import SpecGibbs Gibbs Prop_Annealing Prop_Sweeps.
From Verif Require Export Thm_Loss.

(** ** C19: the losses of one run.  With [_debug] every result holds the results below it; the loss
    of each is its own loss function, applied to it and to the loss below.  ([tracks] in SpecLoss.v;
    C20_debug_neutral: the loss is the same without [_debug].) *)
Theorem C19_same_run : forall (L : lib) (t : inf L) c kws s (r : out L) s',
  wf_dict kws -> wf_st s -> truthy (kwarg "_debug" (VBool false) kws) = true ->
  returns (run t c kws) s r s' -> tracks t r.
Proof. intros L t c kws s r s' W Ws Hd H. exact (run_tracks t c kws s r s' W Ws Hd H). Qed.
Print Assumptions C19_same_run.

(** ** C75, annealing.  A sampler with [K] steps: its result holds the results of [K] proposal steps,
    numbered from 0; its loss is the sum of the objective of each; between two steps, and nowhere
    else, the particles are resampled, if at all. *)
Theorem C75_annealing : forall (L : lib) (detach_dist : D L -> D L) (base : nat) (targets forwards reverses : list (inf L))
    (objective : out L -> res (T L)) (avo resample : bool) (rs : resampler L) (q : inf L) c kws s (o : out L) s' K,
  length forwards = K -> length reverses = K -> length targets = S K -> 0 < K -> is_prog (hd q targets) ->
  wf_dict kws -> wf_st s -> truthy (kwarg "_debug" (VBool false) kws) = true ->
  vsmc detach_dist base targets forwards reverses objective avo resample rs = Ok q ->
  returns (run q c kws) s o s' ->
  exists outs ls, proposals o outs /\ length outs = K /\
    Forall2 (fun x l => objective (before_loss x) = Ok l) outs ls /\ out_loss o = Some (added ls) /\
    out_type o = TyPropose /\
    forall i x, nth_error outs i = Some x ->
      out_ix x = Some (VInt (Z.of_nat i)) /\
      continues x (match i with O => TyProgram | S _ => if resample then TyResample else TyPropose end).
Proof.
  intros L dd base targets forwards reverses objective avo resample rs q c kws s o s' K Hf Hr Ht HK Hp W Ws Hd Hq H.
  unfold vsmc in Hq. destruct targets as [|t0 ts]; [discriminate|]. injection Hq as <-. cbn [hd] in Hp.
  set (steps := combine forwards (combine reverses ts)) in *.
  assert (Hlen : length steps = K) by (unfold steps; rewrite !combine_length; cbn [length] in Ht; lia).
  pose proof (run_tracks _ _ _ _ _ _ W Ws Hd H) as Htr.
  assert (Hk : kind t0 = TyProgram) by (destruct t0; cbn in Hp; [reflexivity|destruct Hp..]).
  assert (Hq0 : quiet t0) by (destruct t0; cbn in Hp; [exact I|destruct Hp..]).
  assert (Hp0 : popts t0 = []) by (destruct t0; cbn in Hp; [reflexivity|destruct Hp..]).
  destruct (loop_popts dd objective avo resample rs base (length forwards) steps 0 t0) as [E1 E2]; [lia|left; exact Hk|].
  destruct (tracks_steps _ _ (E2 Hq0) Htr) as (outs & H1 & H2 & H3).
  pose proof (F2_len _ _ _ H2) as Hl. rewrite E1, Hp0 in *. cbn [app] in *. rewrite map_length, seq_length in Hl.
  destruct (chain_added objective (fun i => VInt (Z.of_nat i)) _ (seq 0 (length steps)) outs (tzero L) _ ltac:(rewrite seq_length; lia) H3) as (ls & H4 & H5).
  assert (Hty : out_type o = TyPropose).
  { rewrite (tracks_type _ _ Htr), loop_kind by lia. destruct steps; [cbn in Hlen; lia|reflexivity]. }
  exists outs, ls. split; [exact H1|]. split; [lia|]. split; [exact H4|]. split; [|split; [exact Hty|]].
  - unfold added. rewrite <- H5. eapply passed_some; [|exact Htr]. rewrite <- (tracks_type _ _ Htr), Hty. discriminate.
  - intros i x Hx. assert (Hi : (i < length steps)%nat) by (rewrite Hl; apply nth_error_Some; congruence).
    assert (HF : forall (n m : nat) l, Forall2 reports (map (fun i => (mkOpts (fun o loss => rmap (fun l => tadd L l loss) (objective o)) None (VInt (Z.of_nat i)) true,
        Some (match i with O => TyProgram | S _ => if resample then TyResample else TyPropose end))) (seq m n)) l -> forall i x, nth_error l i = Some x ->
        out_ix x = Some (VInt (Z.of_nat (m + i))) /\ continues x (match (m + i)%nat with O => TyProgram | S _ => if resample then TyResample else TyPropose end)).
    { clear. intros n. induction n as [|n IH]; intros m l HF i x Hx; cbn [seq map] in HF; inversion HF as [|? y ? l' Hy HF']; subst; [destruct i; discriminate|].
      destruct i as [|i]; cbn in Hx.
      - injection Hx as <-. rewrite Nat.add_0_r. destruct Hy as (_ & E1 & E2). cbn [fst snd in_ix] in E1, E2. split; [apply E1; reflexivity|apply E2; reflexivity].
      - destruct (IH (S m) l' HF' i x Hx) as [E1 E2]. rewrite Nat.add_succ_comm in *. split; assumption. }
    exact (HF (length steps) 0%nat outs H2 i x Hx).
Qed.
Print Assumptions C75_annealing.

(** ** C75, Gibbs sweeps *)
Section Gibbs.
  Context {L : lib} (N : nets L) (wmean : T L -> T L -> T L) (node_sum : T L -> T L) (rs : resampler L).
  Notation step := (gibbs_step L N wmean node_sum).
  Lemma composes_quiet n : quiet (is_composes L N n) /\ popts (is_composes L N n) = [].
  Proof. induction n as [|n [IH1 IH2]]; cbn; [split; [exact I|reflexivity]|]. repeat split; assumption. Qed.
  Definition initial_opts (T_ : nat) : infopts L * option otype :=
    (copts L (loss_is L wmean) (apg_ix L (Z.of_nat T_) 0 "forward") false, prev_kind (ICompose (4 + T_) (enc_digit L N) (is_composes L N T_) (copts L default_loss (apg_ix L (Z.of_nat T_) 0 "forward") false))).
  Definition step_opts (s t : nat) : infopts L * option otype :=
    (copts L (loss_apg L wmean node_sum) (apg_ix L (Z.of_nat t) (Z.of_nat s) "propose") false, Some TyResample).
  Lemma initial_quiet T_ : quiet (initial_is L N wmean T_) /\ popts (initial_is L N wmean T_) = [initial_opts T_].
  Proof.
    unfold initial_is. destruct (composes_quiet T_) as [H1 H2]. cbn [quiet popts prev_kind in_loss0 in_loss copts]. rewrite H2. cbn [app].
    repeat split; exact H1.
  Qed.
  Lemma step_quiet T_ s t q : quiet q -> kind q = TyResample -> quiet (step T_ s t q) /\ popts (step T_ s t q) = popts q ++ [step_opts s t].
  Proof. intros Hq Hk. unfold gibbs_step. cbn [quiet popts prev_kind in_loss0 in_loss copts]. rewrite Hk. repeat split; exact Hq. Qed.
  Lemma sweep_quiet T_ s q n : quiet q -> kind q = TyResample ->
    quiet (sweep_steps L N wmean node_sum rs T_ s n q) /\ kind (sweep_steps L N wmean node_sum rs T_ s n q) = TyResample /\
    popts (sweep_steps L N wmean node_sum rs T_ s n q) = popts q ++ map (step_opts s) (seq 0 n).
  Proof.
    intros Hq Hk. induction n as [|n (IH1 & IH2 & IH3)]; cbn [sweep_steps]; [cbn; rewrite app_nil_r; auto|].
    destruct (step_quiet T_ s n _ IH1 IH2) as [E1 E2]. cbn [resampled quiet kind popts]. rewrite E2, IH3, seq_S, map_app, <- app_assoc. cbn [Nat.add map].
    split; [split; [reflexivity|exact E1]|]. split; reflexivity.
  Qed.
  Lemma sweeps_quiet T_ num n : n <= num ->
    quiet (sweeps L N wmean node_sum rs T_ num n) /\ kind (sweeps L N wmean node_sum rs T_ num n) = (if Nat.eqb n num then TyPropose else TyResample) /\
    popts (sweeps L N wmean node_sum rs T_ num n) = initial_opts T_ :: flat_map (fun s => map (step_opts s) (seq 0 (T_ + 1))) (seq 1 n).
  Proof.
    induction n as [|n IH]; intros Hn.
    - destruct (initial_quiet T_) as [H1 H2]. cbn [sweeps seq flat_map]. destruct num as [|num]; cbn [Nat.ltb Nat.leb Nat.eqb]; [split; [exact H1|split; [reflexivity|exact H2]]|].
      unfold resampled. cbn [quiet kind popts]. split; [split; [reflexivity|assumption]|]. split; [reflexivity|assumption].
    - destruct IH as (H1 & H2 & H3); [lia|]. destruct (Nat.eqb_spec n num); [lia|].
      destruct (sweep_quiet T_ (S n) _ T_ H1 H2) as (E1 & E2 & E3). destruct (step_quiet T_ (S n) T_ _ E1 E2) as [F1 F2].
      assert (Ep : popts (step T_ (S n) T_ (sweep_steps L N wmean node_sum rs T_ (S n) T_ (sweeps L N wmean node_sum rs T_ num n)))
        = initial_opts T_ :: flat_map (fun s => map (step_opts s) (seq 0 (T_ + 1))) (seq 1 (S n))).
      { rewrite F2, E3, H3, seq_S, flat_map_app. cbn [app flat_map Nat.add]. rewrite app_nil_r, Nat.add_1_r, seq_S, map_app, <- app_assoc. cbn [map Nat.add]. reflexivity. }
      cbn [sweeps]. destruct (Nat.eqb (S n) num); [split; [exact F1|split; [reflexivity|exact Ep]]|].
      unfold resampled. cbn [quiet kind popts]. split; [split; [reflexivity|assumption]|]. split; [reflexivity|assumption].
  Qed.
  Lemma apg_chain (ixs : list (nat * nat)) : forall xs acc total, length xs = length ixs ->
    chain (map (fun st => step_opts (fst st) (snd st)) ixs) xs acc = Ok total ->
    exists ls, Forall2 (apg_objective wmean node_sum) (map before_loss xs) ls /\ total = fold_left (fun total l => tadd L l total) ls acc.
  Proof.
    induction ixs as [|[s t] ixs IH]; intros [|x xs] acc total Hl H; try discriminate; cbn [map chain] in H.
    - injection H as <-. exists []. split; [constructor|reflexivity].
    - cbn [fst snd step_opts copts in_loss] in H. destruct (loss_apg L wmean node_sum (before_loss x) acc) as [l|e] eqn:El; [|discriminate]. cbn [rbind] in H.
      unfold loss_apg in El. destruct (out_px (before_loss x)) as [px|] eqn:Epx; [|discriminate]. destruct (px_forward_trace px) as [fwd|] eqn:Ef; [|discriminate].
      match type of El with rbind ?k _ = _ => destruct k as [key|e] eqn:Ek; [|discriminate] end. cbn [rbind] in El.
      destruct (dget key (px_target_trace px)) as [r|] eqn:Er; [|discriminate].
      destruct (log_joint _ _ _ _ fwd) as [lq|e] eqn:Elq; [|discriminate]. cbn [rbind] in El. injection El as <-.
      destruct (IH xs _ total ltac:(injection Hl as Hl; exact Hl) H) as (ls & H1 & H2).
      exists (tadd L (wmean (out_lw (before_loss x)) lq) (wmean (out_lw (before_loss x)) (node_sum (rv_logp r))) :: ls). split; [|exact H2].
      cbn [map]. constructor; [|exact H1]. exists px, fwd, key, r, lq. repeat split; try assumption.
      intros Hin. apply dmem_In in Hin. rewrite Hin in Ek. injection Ek as <-. reflexivity.
  Qed.
End Gibbs.

(** A run of [num_sweeps] sweeps over [T_] frames: the loss is the objective of the initial
    importance sampling plus those of all the steps, in the order of the sweeps (positions first,
    then digits); every step but the last is followed by resampling. *)
Theorem C75_gibbs : forall (L : lib) (N : nets L) wmean node_sum rs num_sweeps T_ c kws s (o : out L) s',
  wf_dict kws -> wf_st s -> truthy (kwarg "_debug" (VBool false) kws) = true ->
  returns (run (gibbs_sweeps L N wmean node_sum rs num_sweeps T_) c kws) s o s' ->
  exists first rest l0 ls, proposals o (first :: rest) /\
    out_ix first = Some (apg_ix L (Z.of_nat T_) 0 "forward") /\
    map (@out_ix L) rest = flat_map (fun s => map (fun t => Some (apg_ix L (Z.of_nat t) (Z.of_nat s) "propose")) (seq 0 (T_ + 1))) (seq 1 num_sweeps) /\
    is_objective wmean (before_loss first) l0 /\ Forall2 (apg_objective wmean node_sum) (map before_loss rest) ls /\
    out_loss o = Some (added (l0 :: ls)) /\
    Forall (fun x => continues x TyResample) rest /\ out_type o = TyPropose.
Proof.
  intros L N wmean node_sum rs n T_ c kws s o s' W Ws Hd H. unfold gibbs_sweeps in H. pose proof (run_tracks _ _ _ _ _ _ W Ws Hd H) as Htr.
  destruct (sweeps_quiet N wmean node_sum rs T_ n n (le_n n)) as (H1 & H2 & H3). rewrite Nat.eqb_refl in H2.
  destruct (tracks_steps _ _ H1 Htr) as (outs & P1 & P2 & P3). rewrite H3 in P2, P3.
  inversion P2 as [|f x0 fs rest Hx0 Hrest Ef Eo]. subst f fs outs. cbn [chain] in P3.
  destruct (in_loss (fst (initial_opts N wmean T_)) (before_loss x0) (tzero L)) as [a|e] eqn:Ea; [|discriminate]. cbn [rbind] in P3.
  set (ixs := flat_map (fun s => map (fun t => (s, t)) (seq 0 (T_ + 1))) (seq 1 n)).
  assert (Eix : flat_map (fun s => map (step_opts wmean node_sum s) (seq 0 (T_ + 1))) (seq 1 n) = map (fun st => step_opts wmean node_sum (fst st) (snd st)) ixs).
  { unfold ixs. clear. induction (seq 1 n) as [|s l IH]; cbn [flat_map]; [reflexivity|]. rewrite map_app, <- IH, map_map. reflexivity. }
  rewrite Eix in P3, Hrest. pose proof (F2_len _ _ _ Hrest) as Hlen. rewrite map_length in Hlen.
  destruct (apg_chain wmean node_sum ixs rest a _ (eq_sym Hlen) P3) as (ls & H4 & H5).
  cbn [initial_opts fst in_loss copts] in Ea. unfold loss_is in Ea. destruct (out_px (before_loss x0)) as [px|] eqn:Epx; [|discriminate].
  destruct (log_joint _ _ _ _ (px_proposal_trace px)) as [lq|e] eqn:Elq; [|discriminate]. cbn [rbind] in Ea.
  destruct (log_joint _ _ _ _ (px_target_trace px)) as [lp|e] eqn:Elp; [|discriminate]. cbn [rbind] in Ea. injection Ea as <-.
  exists x0, rest. eexists. exists ls. split; [exact P1|]. split; [apply Hx0; reflexivity|]. split.
  { assert (E2 : map (@out_ix L) rest = map (fun st => Some (apg_ix L (Z.of_nat (snd st)) (Z.of_nat (fst st)) "propose")) ixs).
    { clear -Hrest. revert rest Hrest. induction ixs as [|[s t] l IH]; intros rest Hrest; cbn [map] in *; inversion Hrest as [|? ? ? ? Hx Hr]; subst; [reflexivity|].
      cbn [map]. f_equal; [apply Hx; reflexivity|apply IH, Hr]. }
    rewrite E2. unfold ixs. clear. induction (seq 1 n) as [|s l IH]; cbn [flat_map]; [reflexivity|]. rewrite map_app, IH, map_map. reflexivity. }
  split; [exists px, lq, lp; repeat split; assumption|]. split; [exact H4|].
  split; [rewrite (passed_some _ _ ltac:(rewrite H2; discriminate) Htr); unfold added; cbn [fold_left]; f_equal; exact H5|].
  split; [|rewrite (tracks_type _ _ Htr); exact H2].
  clear -Hrest. revert rest Hrest. induction ixs as [|[s t] l IH]; intros rest Hrest; cbn [map] in *; inversion Hrest as [|? ? ? ? Hx Hr]; subst; [constructor|].
  constructor; [apply Hx; reflexivity|apply IH, Hr].
Qed.
Print Assumptions C75_gibbs.

(** ** instances: both samplers run, with losses that are not zero *)
Example C75_annealing_case : exists q o s', zvsmc 2 true = Ok q /\ returns (run q VNone [("_debug", VBool true)]) (st0 ZL) o s' /\
  option_map (fun l => snd (fst l)) (out_loss o) <> Some 0%Z.
Proof.
  eexists. destruct (seen_by (run (L := ZL) (match zvsmc 2 true with Ok q => q | Err _ => P_z end) VNone [("_debug", VBool true)]) (st0 ZL)
     [zten 1; zten 3; zten 2] (fun o _ => match option_map (fun l => snd (fst l)) (out_loss o) with Some 0%Z => false | _ => true end) true) as (o & s' & H & E); [vm_compute; reflexivity|].
  exists o, s'. split; [reflexivity|]. split; [exact H|]. intros F. rewrite F in E. discriminate.
Qed.
Example C75_gibbs_case : exists o s', returns (run (L := ZL) (gibbs_sweeps ZL nets_ex (fun lw x => tadd ZL lw x) (fun x => x) gibbs_rs 2 2) (VDict gibbs_c) [("_debug", VBool true)]) gibbs_st o s' /\
  match option_map (fun l => snd (fst l)) (out_loss o) with Some 0%Z => false | Some _ => true | None => false end = true.
Proof.
  apply (seen_by (L := ZL) (run (gibbs_sweeps ZL nets_ex (fun lw x => tadd ZL lw x) (fun x => x) gibbs_rs 2 2) (VDict gibbs_c) [("_debug", VBool true)]) gibbs_st
    (map zten [1; 2; 3; 4; 5; 6; 7; 8; 9; 10; 11; 12; 13; 14; 15]%Z) (fun o _ => match option_map (fun l => snd (fst l)) (out_loss o) with Some 0%Z => false | Some _ => true | None => false end)). vm_compute. reflexivity.
Qed.
