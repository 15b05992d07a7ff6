(** A run of the Gibbs sampler, worked out: two particles, one frame of one number, one sweep, and
    the systematic resampler between the steps.  The runs of the sub-programs are computed; where
    the sampler resamples, the ancestors are found by [anc_same]. *)
From Coq Require Import Lra.
From Verif Require Import Gibbs ApgReport RunEq RunInv RunFacts Thm_Resampled Prop_Sweeps InstancesPop SpecParticles Prop_Particles Prop_Observed SystematicFacts.
Close Scope R_scope.
Open Scope nat_scope.

Lemma outcome_seq {L : lib} {A B} (t : stree L A) (f : A -> stree L B) a b : outcome t a -> outcome (f a) b -> outcome (tbind t f) b.
Proof. intros H1 H2. apply outcome_tbind. exists a. split; assumption. Qed.
Lemma teq_outcome {L : lib} {A} (t t' : stree L A) a : teq t t' -> outcome t' a -> outcome t a.
Proof. intros H Ho. apply outcome_path in Ho. destruct Ho as [ds Hp]. eapply path_outcome, teq_path; [apply teq_sym, H|exact Hp]. Qed.
Lemma compose_intro {L : lib} oid q2 q1 o c kws s o1 s1 o2 s2 r : wf_dict kws -> clash ["self"; "c"; "fn"] kws = false ->
  returns (run (L := L) q1 c (sub_kwargs (in_ix o) kws)) s o1 s1 -> returns (run q2 (out_output o1) (sub_kwargs (in_ix o) kws)) s1 o2 s2 ->
  compose_tail o kws o1 o2 = Ok r -> returns (run (ICompose oid q2 q1 o) c kws) s r s2.
Proof.
  intros Hk Hc H1 H2 Ht. eapply teq_outcome; [apply run_compose_eq; assumption|]. eapply outcome_seq; [exact H1|]. unfold after at 1. cbn [fst snd].
  eapply outcome_seq; [exact H2|]. unfold after. cbn [fst snd]. rewrite Ht. constructor.
Qed.
Lemma resample_intro {L : lib} oid q ix l0 rs dbg c kws s qo s1 x r s2 : wf_dict kws -> clash ["self"; "c"; "fn"] kws = false ->
  returns (run (L := L) q c (sub_kwargs ix kws)) s qo s1 ->
  outcome (rs_call rs (out_trace qo) (out_lw qo) (filter (fun kv => check_passable_kwarg (fst kv) (rs_sig rs))
     [("sample_dims", k_sd kws); ("batch_dim", k_bd kws); ("reparameterized", k_rep kws)])) x ->
  resample_tail ix l0 dbg kws qo s1 x = (Ok r, s2) -> returns (run (IResample oid q ix l0 rs dbg) c kws) s r s2.
Proof.
  intros Hk Hc H1 H2 Ht. eapply teq_outcome; [apply run_resample_eq; assumption|]. eapply outcome_seq; [exact H1|]. unfold after. cbn [fst snd].
  eapply outcome_seq; [exact H2|]. rewrite Ht. constructor.
Qed.
Lemma propose_intro {L : lib} oid p q o tf nr c kws s qo s1 po s2 r : wf_dict kws -> wf_st s -> clash ["self"; "c"; "fn"] kws = false -> is_compose p = false ->
  returns (run (L := L) q c (sub_kwargs (in_ix o) kws)) s qo s1 ->
  returns (with_substitution (oid_of p) (Some (out_trace qo)) (run p c (sub_kwargs (in_ix o) kws))) s1 po s2 ->
  propose_tail o p q tf nr kws qo po = Ok r -> returns (run (IPropose oid p q o tf nr) c kws) s r s2.
Proof.
  intros Hk Hs Hc Hp H1 H2 Ht. eapply teq_outcome; [apply run_propose_eq; assumption|]. eapply outcome_seq; [exact H1|]. unfold after at 1. cbn [fst snd].
  eapply outcome_seq; [exact H2|]. unfold after. cbn [fst snd]. rewrite Ht. constructor.
Qed.
Lemma anc_same e u : (0 < u < 1)%R -> ancestors_of [Fin e; Fin e] u = [0; 1].
Proof.
  intros Hu. apply (anc2 (exp e) (exp e)); try apply exp_pos; try (symmetry; apply ln_exp); try exact Hu; pose proof (exp_pos e);
  replace (exp e / (exp e + exp e))%R with (1/2)%R by (field; lra); destruct (Rlt_dec (1/2) _); (reflexivity || lra).
Qed.

(** Every network is a constant: the coin that shows 1 with probability 3/4.  Only the decoder looks at
    its argument: the frame is that coin when the digit is 1, otherwise the coin that shows 1 with
    probability 1/4. *)
Definition netsV : nets PopL := mkNets PopL (fun _ => 1) 1
  (fun _ _ _ _ _ _ => true) (fun l => nth 0 l (Flt 0)) (fun x _ => x) (fun _ _ _ _ _ _ => true) (fun _ _ _ _ => true)
  (fun _ _ => true) (fun _ _ _ => true) (fun _ _ => true) (fun _ what => coinV what) true.
Definition stV : st PopL := mkSt (L := PopL) [] [] (apg_hook (L := PopL) (fun _ _ => true)) [].
Definition meanV (lw x : ten) : ten := Ten (mkArr [] (fun _ => Fin 0)).
Notation kV := (apg_kwargs (L := PopL)).
Definition col_at (x y : R) (i : list nat) : ereal := Fin (if nth 0 i 0 =? 0 then x else y).
Definition cl (x y : R) : ten := Ten (mkArr [2; 1] (col_at x y)).
Ltac ev := cbv -[exp ln Rplus Rmult Ropp Rinv IZR Rminus Rdiv Rle_dec Rlt_dec Req_EM_T total_order_T heads Rle_lt_dec INR ancestors_of rsum].
Definition kt (x : R) : ten := Ten (mkArr [2; 1] (fun _ => Fin x)).
Definition off : ten := Ten (mkArr [1] (fun _ => Fin (1/2))).
Notation cW := (VDict [("frames", VTensor (kt 1))]).
Notation kq := (sub_kwargs (L := PopL)).
Definition k1 := kq (apg_ix PopL 1 1 "propose") kV.        (* of the digit step: Compose *)
Definition k2 := kq (apg_ix PopL 1 1 "forward") k1.        (* Resample and enc_digit *)
Definition k3 := kq VNone k2.                              (* Propose of the position step *)
Definition k4 := kq (apg_ix PopL 0 1 "propose") k3.        (* Compose *)
Definition k5 := kq (apg_ix PopL 0 1 "forward") k4.        (* Resample and enc_coor *)
Definition k6 := kq VNone k5.
Ltac evd t := eval cbv -[exp ln Rplus Rmult Ropp Rinv IZR Rminus Rdiv Rle_dec Rlt_dec Req_EM_T total_order_T heads Rle_lt_dec INR ancestors_of rsum] in t.
Ltac take e := let r := evd e in match r with Some (Ok ?o, ?s) => exact (o, s) end.
Notation rsV := (systematic PopV true).
Definition i0 := initial_is PopL netsV meanV 1.
Definition r0 : out PopL * st PopL. Proof. take (walk (run i0 cW k6 stV) [kt 1; kt 0]). Defined.
Lemma run0 : returns (run i0 cW k6) stV (fst r0) (snd r0).
Proof. apply (walk_outcome (run i0 cW k6 stV) [kt 1; kt 0]). vm_compute. reflexivity. Qed.
Definition rkw (kws : dict (pyval ten)) := filter (fun kv => check_passable_kwarg (fst kv) (rs_sig rsV))
     [("sample_dims", k_sd (L := PopL) kws); ("batch_dim", k_bd (L := PopL) kws); ("reparameterized", k_rep (L := PopL) kws)].
Definition a1 : res (trace PopL * ten).
Proof.
  let r := evd (walk (rs_call rsV (out_trace (fst r0)) (out_lw (fst r0)) (rkw k5)) [off]) in
  match r with context [ancestors_of ?a ?u] => let r' := eval pattern (ancestors_of a u) in r in 
   match r' with ?f _ => let r2 := evd (f [0;1]) in match r2 with Some ?x => exact x end end end.
Defined.
Lemma rs1 : walk (rs_call rsV (out_trace (fst r0)) (out_lw (fst r0)) (rkw k5)) [off] = Some a1.
Proof. ev. rewrite anc_same by lra. ev. reflexivity. Qed.

Definition tr1 : trace PopL. Proof. let r := eval cbv delta [a1] in a1 in match r with Ok (?t, _) => exact t end. Defined.
Definition l1 : list nat -> ereal. Proof. let r := eval cbv delta [a1] in a1 in match r with Ok (_, Ten (mkArr _ ?f)) => exact f end. Defined.
Definition i1 := resampled PopL rsV 7 i0.
Definition i2 := gibbs_step PopL netsV meanV (fun x => x) 1 1 0 i1.
Definition i3 := resampled PopL rsV (8 + 1 + 4 * (1 * (1 + 1) + 0) + 3) i2.
Definition i4 := gibbs_step PopL netsV meanV (fun x => x) 1 1 1 i3.
Lemma i4_sweeps : gibbs_sweeps PopL netsV meanV (fun x => x) rsV 1 1 = i4.
Proof. reflexivity. Qed.
Notation lwf f := (Ten (mkArr [2; 1] f)).
Definition r1 (f : list nat -> ereal) : out PopL * st PopL.
Proof.
  let r := evd (resample_tail VNone None false k5 (fst r0) (snd r0) (Ok (tr1, lwf f))) in
  match r with (Ok ?o, ?s) => exact (o, s) end.
Defined.
Lemma run1 : returns (run i1 cW k5) stV (fst (r1 l1)) (snd (r1 l1)).
Proof.
  eapply (resample_intro _ _ _ _ _ _ _ _ _ _ _ (Ok (tr1, lwf l1))); [cbv; repeat constructor; cbv; intuition discriminate|reflexivity|exact run0| |].
  - apply (walk_outcome (L := PopL) _ [off]). exact rs1.
  - ev. reflexivity.
Qed.

Definition r2a (f : list nat -> ereal) : out PopL * st PopL.
Proof. take (walk (run (enc_coor PopL netsV) (out_output (fst (r1 f))) k5 (snd (r1 f))) [kt 1]). Defined.
Lemma run2a f : returns (run (enc_coor PopL netsV) (out_output (fst (r1 f))) k5) (snd (r1 f)) (fst (r2a f)) (snd (r2a f)).
Proof. apply (walk_outcome (L := PopL) _ [kt 1]). vm_compute. reflexivity. Qed.
Definition ofw (t : Z) := copts PopL default_loss (apg_ix PopL t 1 "forward") true.
Definition orv (t : Z) := copts PopL default_loss (apg_ix PopL t 1 "reverse") false.
Definition opr (t : Z) := copts PopL (loss_apg PopL meanV (fun x => x)) (apg_ix PopL t 1 "propose") false.
Definition r2b (f : list nat -> ereal) : out PopL.
Proof. let r := evd (compose_tail (ofw 0) k4 (fst (r1 f)) (fst (r2a f))) in match r with Ok ?o => exact o end. Defined.
Definition p2 := IExtend (8 + 1 + 4 * (1 * (1 + 1) + 0) + 1) (dec PopL netsV) (enc_coor PopL netsV) (orv 0).
Definition r2c (f : list nat -> ereal) : out PopL * st PopL.
Proof. take (walk (with_substitution (oid_of p2) (Some (out_trace (r2b f))) (run p2 cW k4) (snd (r2a f))) []). Defined.

Lemma run2c f : returns (with_substitution (oid_of p2) (Some (out_trace (r2b f))) (run p2 cW k4)) (snd (r2a f)) (fst (r2c f)) (snd (r2c f)).
Proof. apply (walk_outcome (L := PopL) _ []). vm_compute. reflexivity. Qed.
Definition q2 := ICompose (8 + 1 + 4 * (1 * (1 + 1) + 0) + 2) (enc_coor PopL netsV) i1 (ofw 0).
Definition r2 (f : list nat -> ereal) : out PopL * st PopL.
Proof. let r := evd (propose_tail (opr 0) p2 q2 None true k3 (r2b f) (fst (r2c f))) in match r with Ok ?o => exact (o, snd (r2c f)) end. Defined.
Ltac okd := cbv; repeat constructor; cbv; intuition discriminate.
Lemma run2 f : returns (run i1 cW k5) stV (fst (r1 f)) (snd (r1 f)) -> returns (run i2 cW k3) stV (fst (r2 f)) (snd (r2 f)).
Proof.
  intros H. eapply (propose_intro _ _ _ _ _ _ _ _ _ (r2b f) (snd (r2a f)) (fst (r2c f))); [okd| |reflexivity|reflexivity| | |].
  - intros i t Hi. discriminate.
  - eapply compose_intro; [okd|reflexivity|exact H|exact (run2a f)|]. vm_compute. reflexivity.
  - exact (run2c f).
  - vm_compute. reflexivity.
Qed.
Definition l2 (f : list nat -> ereal) : list nat -> ereal.
Proof. let r := eval cbv delta [r2] in (r2 f) in let r := evd (out_lw (fst r)) in match r with lwf ?g => exact g end. Defined.
Definition a3 (f : list nat -> ereal) : res (trace PopL * ten).
Proof.
  let r := evd (walk (rs_call rsV (out_trace (fst (r2 f))) (lwf f) (rkw k2)) [off]) in
  match r with context [ancestors_of ?a ?u] => let r' := eval pattern (ancestors_of a u) in r in 
   match r' with ?f _ => let r2 := evd (f [0;1]) in match r2 with Some ?x => exact x end end end.
Defined.

Lemma rs3 f g a : f [0;0] = Fin a -> f [1;0] = Fin a -> walk (rs_call rsV (out_trace (fst (r2 g))) (lwf f) (rkw k2)) [off] = Some (a3 f).
Proof. intros H0 H1. ev. rewrite H0, H1. rewrite anc_same by lra. ev. reflexivity. Qed.
Definition tr3 : trace PopL. Proof. let r := eval cbv delta [a3] in a3 in match r with fun _ => Ok (?t, _) => exact t end. Defined.
Definition l3 (f : list nat -> ereal) : list nat -> ereal. Proof. let r := eval cbv delta [a3] in a3 in let r := eval cbv beta in (r f) in match r with Ok (_, Ten (mkArr _ ?f)) => exact f end. Defined.
Definition r3 (g f : list nat -> ereal) : out PopL * st PopL.
Proof.
  let r := evd (resample_tail VNone None false k2 (fst (r2 g)) (snd (r2 g)) (Ok (tr3, lwf f))) in
  match r with (Ok ?o, ?s) => exact (o, s) end.
Defined.
Lemma run3 g a : returns (run i1 cW k5) stV (fst (r1 g)) (snd (r1 g)) -> l2 g [0;0] = Fin a -> l2 g [1;0] = Fin a ->
  returns (run i3 cW k2) stV (fst (r3 g (l3 (l2 g)))) (snd (r3 g (l3 (l2 g)))).
Proof.
  intros H H0 H1.
  eapply (resample_intro _ _ _ _ _ _ _ _ _ _ _ (Ok (tr3, lwf (l3 (l2 g))))); [okd|reflexivity|apply run2, H| |].
  - apply (walk_outcome (L := PopL) _ [off]). exact (rs3 (l2 g) g a H0 H1).
  - generalize (l3 (l2 g)). intros f. vm_compute. reflexivity.
Qed.
Definition r4a (g f : list nat -> ereal) : out PopL * st PopL.
Proof. take (walk (run (enc_digit PopL netsV) (out_output (fst (r3 g f))) k2 (snd (r3 g f))) [cl 0 1]). Defined.
Lemma run4a g f : returns (run (enc_digit PopL netsV) (out_output (fst (r3 g f))) k2) (snd (r3 g f)) (fst (r4a g f)) (snd (r4a g f)).
Proof. apply (walk_outcome (L := PopL) _ [cl 0 1]). vm_compute. reflexivity. Qed.
Definition r4b (g f : list nat -> ereal) : out PopL.
Proof. let r := evd (compose_tail (ofw 1) k1 (fst (r3 g f)) (fst (r4a g f))) in match r with Ok ?o => exact o end. Defined.
Definition p4 := IExtend (8 + 1 + 4 * (1 * (1 + 1) + 1) + 1) (dec PopL netsV) (enc_digit PopL netsV) (orv 1).
Definition r4c (g f : list nat -> ereal) : out PopL * st PopL.
Proof. take (walk (with_substitution (oid_of p4) (Some (out_trace (r4b g f))) (run p4 cW k1) (snd (r4a g f))) []). Defined.
Lemma run4c g f : returns (with_substitution (oid_of p4) (Some (out_trace (r4b g f))) (run p4 cW k1)) (snd (r4a g f)) (fst (r4c g f)) (snd (r4c g f)).
Proof. apply (walk_outcome (L := PopL) _ []). vm_compute. reflexivity. Qed.
Definition q4 := ICompose (8 + 1 + 4 * (1 * (1 + 1) + 1) + 2) (enc_digit PopL netsV) i3 (ofw 1).
Definition r4 (g f : list nat -> ereal) : out PopL * st PopL.
Proof. let r := evd (propose_tail (opr 1) p4 q4 None true kV (r4b g f) (fst (r4c g f))) in match r with Ok ?o => exact (o, snd (r4c g f)) end. Defined.
Lemma run4 g f : returns (run i3 cW k2) stV (fst (r3 g f)) (snd (r3 g f)) -> returns (run i4 cW kV) stV (fst (r4 g f)) (snd (r4 g f)).
Proof.
  intros H. eapply (propose_intro _ _ _ _ _ _ _ _ _ (r4b g f) (snd (r4a g f)) (fst (r4c g f))); [okd| |reflexivity|reflexivity| | |].
  - intros i t Hi. discriminate.
  - eapply compose_intro; [okd|reflexivity|exact H|exact (run4a g f)|]. vm_compute. reflexivity.
  - exact (run4c g f).
  - vm_compute. reflexivity.
Qed.

(** equal weights are still equal after resampling and normalising: a half each *)
Lemma halved (a : arr) c : shape a = [2; 1] -> at_ a [0;0] = Fin c -> at_ a [1;0] = Fin c ->
  at_ (log_softmax (mean_weight a)) [0;0] = Fin (ln (1/2)) /\ at_ (log_softmax (mean_weight a)) [1;0] = Fin (ln (1/2)).
Proof.
  intros Hs H0 H1.
  assert (E : exists m, fiber0 (mean_weight a) [0] = [Fin m; Fin m]).
  { unfold fiber0, mean_weight. cbn [shape at_]. rewrite Hs. cbn [nth seq map tl]. unfold fiber0. rewrite Hs. cbn [nth seq map]. rewrite H0, H1.
    unfold logsumexp, elog. cbn [map eshift eexp rsum fold_right]. destruct (Rlt_dec 0 _) as [_|n]; [eexists; reflexivity|].
    exfalso. apply n. unfold rsum. cbn [fold_right]. pose proof (exp_pos (c + - ln (INR 2))). lra. }
  destruct E as (m & E).
  assert (G : forall k, k = 0 \/ k = 1 -> at_ (log_softmax (mean_weight a)) [k;0] = Fin (ln (1/2))).
  { intros k Hk. unfold log_softmax. cbn [at_ nth tl]. rewrite E. unfold softmax. cbn [map eexp].
    assert (Ex : (exp m / rsum [exp m; exp m] = 1/2)%R) by (unfold rsum; cbn [fold_right]; pose proof (exp_pos m); field; lra). rewrite Ex.
    destruct Hk as [->| ->]; cbn [nth]; unfold elog; (destruct (Rlt_dec 0 (1/2)); [reflexivity|lra]). }
  split; apply G; auto.
Qed.
Lemma l1_half : l1 [0;0] = Fin (ln (1/2)) /\ l1 [1;0] = Fin (ln (1/2)).
Proof. eapply (halved (to_arr PopV (out_lw (fst r0)))); reflexivity. Qed.
Lemma l3_half f c : f [0;0] = Fin c -> f [1;0] = Fin c -> l3 f [0;0] = Fin (ln (1/2)) /\ l3 f [1;0] = Fin (ln (1/2)).
Proof. intros H0 H1. exact (halved (mkArr [2; 1] f) c eq_refl H0 H1). Qed.
Lemma l2_half f c : f [0;0] = Fin c -> f [1;0] = Fin c -> exists d, l2 f [0;0] = Fin d /\ l2 f [1;0] = Fin d.
Proof. intros H0 H1. unfold l2. rewrite H0, H1. eexists. split; reflexivity. Qed.

(** the whole run *)
Definition last := r4 l1 (l3 (l2 l1)).
Lemma whole : returns (apg_call (fun _ : unit => netsV) meanV (fun x => x) rsV 1 1 tt (kt 1)) stV (fst last) (snd last).
Proof.
  unfold apg_call. rewrite i4_sweeps. destruct l1_half as [A0 A1]. destruct (l2_half l1 _ A0 A1) as (d & B0 & B1).
  apply run4. eapply run3; [exact run1|exact B0|exact B1].
Qed.
Lemma started : exists f, (f [0;0] = Fin (ln (1/2)) /\ f [1;0] = Fin (ln (1/2))) /\ last = r4 l1 f.
Proof.
  destruct l1_half as [A0 A1]. destruct (l2_half l1 _ A0 A1) as (d & B0 & B1). exists (l3 (l2 l1)). split; [exact (l3_half _ _ B0 B1)|reflexivity].
Qed.

(** what training computes from its output exists *)
Lemma metrics_some g f : exists m, batch_metrics PopV 1 (fst (r4 g f)) = Ok m.
Proof. eexists. vm_compute. reflexivity. Qed.
(** the weights that the last step received and those that it returned *)
Lemma received g f : f [0;0] = Fin (ln (1/2)) -> f [1;0] = Fin (ln (1/2)) ->
  exists px, out_px (fst (r4 g f)) = Some px /\ shape (to_arr PopV (px_lw px)) = [2; 1] /\ fiber0 (to_arr PopV (px_lw px)) [0] = [Fin (0 + ln (1/2)); Fin (0 + ln (1/2))].
Proof.
  intros H0 H1. eexists. split; [cbv [r4 fst out_px]; reflexivity|]. cbn [px_lw to_arr PopV arr_of]. split; [reflexivity|].
  unfold fiber0. cbn [shape nth seq map at_]. rewrite H0, H1. reflexivity.
Qed.
Lemma returned g f : f [0;0] = Fin (ln (1/2)) -> f [1;0] = Fin (ln (1/2)) ->
  exists a, entries (ess_array (to_arr PopV (out_lw (fst (r4 g f))))) = [Fin (effective_sample_size [Fin a; Fin (a + (ln (3/4) - ln (1/4)))])].
Proof.
  intros H0 H1. let r := eval cbv [r4 fst out_lw] in (out_lw (fst (r4 g f))) in change (out_lw (fst (r4 g f))) with r.
  cbn [to_arr PopV arr_of]. unfold entries. cbn [ess_array shape tl indices flat_map map app seq at_].
  unfold fiber0. cbn [shape nth seq map at_]. rewrite H0, H1. cbn [nth Nat.eqb].
  match goal with |- exists _, [Fin (effective_sample_size [Fin ?x; _])] = _ => exists x end.
  do 3 f_equal. f_equal. f_equal. f_equal. unfold heads. destruct (Req_EM_T 1 1) as [_|]; [|contradiction]. destruct (Req_EM_T 0 1); [lra|]. unfold rsum. cbn [fold_right]. ring.
Qed.
