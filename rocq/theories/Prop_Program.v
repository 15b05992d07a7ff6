(** Properties C01-C04: the weight and the trace of a Program call. *)
From Verif Require Import Thm_Program.

(** ** C01 Program weight law
    [get_cond oid s] is the trace substituted for the program (None: no substitution). *)
Theorem C01_program_weight : forall (L : lib) (HL : lib_laws L) oid sg m c kws s o s',
  wf_st s -> returns (run (L := L) (IProg oid sg m) c kws) s o s' ->
  wf_dict (out_trace o) /\
  out_lw o = logp_sum (kwarg "sample_dims" VNone kws) (kwarg "batch_dim" VNone kws)
               (fun a r => is_observed r || latent_in_opt (get_cond oid s) a) (out_trace o).
Proof. exact forward_weight. Qed.
Print Assumptions C01_program_weight.

(** a call that does not return: the keyword arguments clash with the model's positional
    parameters, the user's model raised, or probtorch rejected a node *)
Theorem C01_program_returns : forall (L : lib) oid sg m c kws s r s' (HL : lib_laws L),
  outcome (run (L := L) (IProg oid sg m) c kws s) (r, s') ->
  match r with
  | Ok _ => True
  | Err e =>
      (e = TypeError /\ s' = s /\
         exists k, In k (["sample_dims"; "batch_dim"; "reparameterized"] ++ dkeys kws) /\
                   (k = "self" \/ In k (firstn 3 (s_args sg)))) \/
      (exists kws' s1, outcome (exec (get_cond oid s) (m c kws') [] s1) (Err e, s')) \/
      (e = ValueError /\ exists kws' s1 out tr n nd,
         outcome (exec (get_cond oid s) (m c kws') [] s1) (Ok (out, tr), s') /\ dget n tr = Some nd /\
         lj_ok L (kwarg "reparameterized" (VBool true) kws) (rv_rep nd) (rv_prov nd) = false)
  end.
Proof. exact forward_total. Qed.
Print Assumptions C01_program_returns.

(** x is substituted by 1 (density at 3: -4), y is observed at 7 (density at 5: -4) *)
Example C01_substituted_call :
  exists o s', returns (run P_xy VNone []) (st_cond 1 [("x", node 1)]) o s' /\
    wf_st (st_cond 1 [("x", node 1)]) /\ (fst (out_lw o) = (true, -8)%Z).
Proof.
  eexists _, _. split; [apply (walk_outcome (L := ZL) _ []); reflexivity|].
  split; [|reflexivity]. intros i t H. unfold st_cond, get_cond, set_cond in H. cbn in H.
  destruct (Nat.eqb i 1); [|discriminate]. injection H as <-. repeat constructor. intros [].
Qed.

(** ** C02 Unconditioned Program is weighted by its observations only *)
Theorem C02_unconditioned : forall (L : lib) (HL : lib_laws L) oid sg m c kws s o s',
  get_cond oid s = None -> returns (run (L := L) (IProg oid sg m) c kws) s o s' ->
  out_lw o = logp_sum (kwarg "sample_dims" VNone kws) (kwarg "batch_dim" VNone kws)
               (fun _ r => is_observed r) (out_trace o) /\
  ((forall a r, In (a, r) (out_trace o) -> rv_prov r <> OBSERVED) -> out_lw o = tzero L).
Proof. exact forward_unconditioned. Qed.
Print Assumptions C02_unconditioned.
Example C02_call : exists o s', returns (run P_xy VNone []) (st0 ZL) o s' /\ get_cond 1 (st0 ZL) = None /\
  fst (out_lw o) = (true, -4)%Z.
Proof. eexists _, _. split; [apply (walk_outcome (L := ZL) _ [zten 9]); reflexivity|]. split; reflexivity. Qed.
Example C02_call_without_observation : exists o s', returns (run P_z VNone []) (st0 ZL) o s' /\
  (forall a r, In (a, r) (out_trace o) -> rv_prov r <> OBSERVED) /\ out_trace o <> [].
Proof.
  eexists _, _. split; [apply (walk_outcome (L := ZL) _ [zten 9]); reflexivity|]. split; [|discriminate].
  cbn. intros a r [E|[]]. injection E as <- <-. discriminate.
Qed.

(** ** C03 Substitution reuses values and marks provenance
    [ds] lists the random draws of the call: exactly one per SAMPLED node, none for the others. *)
Theorem C03_substitution : forall (L : lib) oid sg (m : pyval (T L) -> dict (pyval (T L)) -> model L) c kws s ds o s',
  (forall c kws, plain (m c kws)) ->
  path (run (IProg oid sg m) c kws s) ds (Ok o, s') ->
  exists kws', ds = sampled_draws (out_trace o) /\
    forall a r, In (a, r) (out_trace o) -> node_explained (get_cond oid s) (m c kws') a r.
Proof. exact forward_plain. Qed.
Print Assumptions C03_substitution.

(** in particular *)
Theorem C03_provenance : forall (L : lib) oid sg (m : pyval (T L) -> dict (pyval (T L)) -> model L) c kws s o s',
  (forall c kws, plain (m c kws)) ->
  returns (run (IProg oid sg m) c kws) s o s' ->
  forall a r, In (a, r) (out_trace o) ->
    match rv_prov r with
    | OBSERVED => True
    | REUSED => value_in (get_cond oid s) a = Some (rv_value r)
    | SAMPLED => value_in (get_cond oid s) a = None
    end.
Proof. exact forward_provenance. Qed.
Print Assumptions C03_provenance.
Theorem C03_nothing_reused_without_substitution :
  forall (L : lib) oid sg (m : pyval (T L) -> dict (pyval (T L)) -> model L) c kws s o s',
  (forall c kws, plain (m c kws)) -> get_cond oid s = None ->
  returns (run (IProg oid sg m) c kws) s o s' ->
  forall a r, In (a, r) (out_trace o) -> rv_prov r <> REUSED.
Proof. exact forward_not_reused. Qed.
Print Assumptions C03_nothing_reused_without_substitution.

Example C03_plain_model : (forall c kws, plain (xy_model c kws)) /\ (forall c kws, plain (ax_model c kws)).
Proof.
  split; intros c kws.
  - apply (plain_var (L := ZL) _ _ None). intros x. apply (plain_var (L := ZL) _ _ (Some (zten 7))). intros y. constructor.
  - apply (plain_var (L := ZL) _ _ None). intros x. apply (plain_var (L := ZL) _ _ None). intros y. constructor.
Qed.
(** under {x: 1} the model with two latent variables a, x draws a only *)
Example C03_partial_substitution : exists o s',
  path (run P_ax VNone [] (st_cond 3 [("x", node 1)])) [(DrawDist (L := ZL) 0%Z true VNone, zten 6)] (Ok o, s') /\
  map (fun ar => (fst ar, rv_prov (snd ar), rv_value (snd ar))) (out_trace o) =
    [("a", SAMPLED, zten 6); ("x", REUSED, zten 1)].
Proof. eexists _, _. split; [apply (walkd_path (L := ZL) _ [zten 6]); reflexivity|reflexivity]. Qed.

(** ** C04 A fully substituted Program is weighted by its joint density *)
Theorem C04_full_substitution : forall (L : lib) (HL : lib_laws L) oid sg m c kws s o s',
  wf_st s -> returns (run (L := L) (IProg oid sg m) c kws) s o s' ->
  (forall a, latent_in (out_trace o) a = true -> latent_in_opt (get_cond oid s) a = true) ->
  out_lw o = logp_sum (kwarg "sample_dims" VNone kws) (kwarg "batch_dim" VNone kws)
               (fun _ _ => true) (out_trace o).
Proof. exact forward_full_substitution. Qed.
Print Assumptions C04_full_substitution.
Example C04_call :
  exists o s', returns (run P_xy VNone []) (st_cond 1 [("x", node 1)]) o s' /\
    forall a, latent_in (out_trace o) a = true -> latent_in_opt (get_cond 1 (st_cond 1 [("x", node 1)])) a = true.
Proof.
  eexists _, _. split; [apply (walk_outcome (L := ZL) _ []); reflexivity|].
  intros a. cbn. unfold latent_in. cbn. destruct (String.eqb_spec a "x") as [->|H]; [reflexivity|].
  destruct (String.eqb a "y"); intros H'; discriminate.
Qed.
