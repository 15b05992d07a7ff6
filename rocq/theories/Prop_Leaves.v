(** C76: the programs of the annealing experiment one by one: what each draws, records and weighs. *)
From Verif Require Import Thm_Annealing Instances.

(** A call is ordinary when no keyword argument repeats and none is named like a parameter that is
    passed by position. *)
Definition ordinary {L : lib} (kws : dict (pyval (T L))) : Prop :=
  wf_dict kws /\ forall k, In k ["self"; "c"; "fn"; "trace"] -> ~ In k (dkeys kws).
(** the result of a program with the single node [r] at [n] and weight [lw] *)
Definition single {L : lib} (n : string) (r : rv L) (lw : T L) : out L :=
  mkOut [(n, r)] lw (VDict [(n, VTensor (rv_value r))]) TyProgram None None None None [].
(** nothing is rejected by log_joint: torch would only complain about shapes *)
Definition accepted {L : lib} (kws : dict (pyval (T L))) : Prop :=
  forall b p, lj_ok L (kwarg "reparameterized" (VBool true) kws) b p = true.
Definition summed {L : lib} (kws : dict (pyval (T L))) (lp : T L) : T L :=
  tadd L (tzero L) (bsum L (kwarg "sample_dims" VNone kws) (kwarg "batch_dim" VNone kws) lp).

Lemma ordinary_ok {L : lib} (kws : dict (pyval (T L))) : ordinary kws -> call_ok kws.
Proof. intros [H1 H2]. split; [exact H1|]. apply clash_false. intros k Hk Hin. exact (H2 k Hin Hk). Qed.

(** Distribution(name, dist) on its own: one draw, of the sample_shape asked for (default (1, 1)), by
    rsample exactly if the program is reparameterized; weight 0. *)
Theorem C76_distribution_draws : forall (L : lib) (HL : lib_laws L) oid n d rep c kws s,
  ordinary kws -> accepted kws -> get_cond oid s = None ->
  exists k, teq (run (distribution_prog oid n d rep) c kws s) (Draw (DrawDist d rep (kwarg "sample_shape" (VTup [VInt 1; VInt 1]) kws)) k) /\
  forall v, exists s', k v = Leaf (Ok (single n (mkRV (Proper d) v (logp L d v) SAMPLED rep true) (tzero L)), s').
Proof.
  intros L HL oid n d rep c kws s Hk Ha Hc. eexists. split; [eapply (init_free HL); [apply ordinary_ok, Hk|exact Hc|reflexivity..]|].
  intros v. eexists. reflexivity.
Qed.
Print Assumptions C76_distribution_draws.
(** ConditionalMultivariateNormal(from, to): one draw from the normal its network computes from the
    value of [from] in its input. *)
Theorem C76_kernel_draws : forall (L : lib) (HL : lib_laws L) oid from to (net : T L -> D L) rep input x kws s,
  ordinary kws -> accepted kws -> get_cond oid s = None -> dget from input = Some (VTensor x) ->
  exists k, teq (run (kernel_prog oid from to net rep) (VDict input) kws s) (Draw (DrawDist (net x) rep VNone) k) /\
  forall v, exists s', k v = Leaf (Ok (single to (mkRV (Proper (net x)) v (logp L (net x) v) SAMPLED rep true) (tzero L)), s').
Proof.
  intros L HL oid from to net rep input x kws s Hk Ha Hc Hx. eexists. split.
  - unfold kernel_prog. cbn [run]. eapply teq_trans; [apply forward_eq; apply call_ok_prog; [apply ordinary_ok, Hk|reflexivity]|].
    rewrite Hc. cbn [kernel_model]. rewrite Hx. cbn [exec tbind]. constructor. intros v. unfold mbind, lift.
    cbn [add_node dmem dget dset tbind fst snd exec ret after]. apply teq_eq. unfold after. cbn [fst snd prog_tail].
    cbn [dkeys map fst latent_addrs filter snd is_observed rv_prov prov_eqb negb].
    rewrite nodes_none, (lj_nil HL). reflexivity.
  - intros v. eexists. reflexivity.
Qed.
Print Assumptions C76_kernel_draws.

(** Under a substitution that has their address as a latent variable the three kinds of program draw
    nothing, take the value, mark it REUSED, and weigh it by their density. *)
Theorem C76_substituted : forall (L : lib) (HL : lib_laws L) oid n given r kws s,
  ordinary kws -> accepted kws -> get_cond oid s = Some given -> dget n given = Some r -> In n (latent_addrs given) ->
  (forall d rep c, exists s', teq (run (distribution_prog oid n d rep) c kws s)
     (Leaf (Ok (single n (mkRV (Proper d) (rv_value r) (logp L d (rv_value r)) REUSED rep true) (summed kws (logp L d (rv_value r)))), s'))) /\
  (forall f c, exists s', teq (run (density_prog oid n f) c kws s)
     (Leaf (Ok (single n (mkRV (Improper f) (rv_value r) (f (rv_value r)) REUSED true true) (summed kws (f (rv_value r)))), s'))) /\
  (forall from (net : T L -> D L) rep input x, dget from input = Some (VTensor x) -> exists s',
     teq (run (kernel_prog oid from n net rep) (VDict input) kws s)
     (Leaf (Ok (single n (mkRV (Proper (net x)) (rv_value r) (logp L (net x) (rv_value r)) REUSED rep true) (summed kws (logp L (net x) (rv_value r)))), s'))).
Proof.
  intros L HL oid n given r kws s Hk Ha Hc Hr Hin. split; [|split].
  - intros d rep c. eexists. exact (target_cond HL _ _ _ Ha oid n (TDist d rep) c kws s given r (ordinary_ok _ Hk) Hc Hr Hin eq_refl eq_refl eq_refl).
  - intros f c. eexists. exact (target_cond HL _ _ _ Ha oid n (TDens f) c kws s given r (ordinary_ok _ Hk) Hc Hr Hin eq_refl eq_refl eq_refl).
  - intros from net rep input x Hx. eexists. unfold kernel_prog. cbn [run].
    eapply teq_trans; [apply forward_eq; apply call_ok_prog; [apply ordinary_ok, Hk|reflexivity]|].
    rewrite Hc. cbn [kernel_model]. rewrite Hx. cbn [exec tbind]. rewrite Hr.
    unfold mbind, lift. cbn [add_node dmem dget dset tbind fst snd exec ret after].
    apply teq_eq. unfold after. cbn [fst snd prog_tail].
    cbn [dkeys map fst latent_addrs filter snd is_observed rv_prov prov_eqb negb].
    rewrite nodes_in by exact Hin.
    erewrite (lj_one HL _ _ _ Ha); [|cbn [dget]; rewrite String.eqb_refl; reflexivity]. reflexivity.
Qed.
Print Assumptions C76_substituted.

(** An unnormalised density cannot be sampled, and a kernel needs its input. *)
Theorem C76_refuses : forall (L : lib) oid n (f : T L -> T L) from to (net : T L -> D L) rep c input kws s,
  ordinary kws ->
  (match get_cond oid s with Some given => dget n given | None => None end = None ->
     exists s', teq (run (density_prog oid n f) c kws s) (Leaf (Err AssertionError, s'))) /\
  (dget from input = None -> exists s', teq (run (kernel_prog oid from to net rep) (VDict input) kws s) (Leaf (Err KeyError, s'))).
Proof.
  intros L oid n f from to net rep c input kws s Hk. split.
  - intros Hc. unfold density_prog. cbn [run]. eexists. eapply teq_trans; [apply forward_eq; apply call_ok_prog; [apply ordinary_ok, Hk|reflexivity]|].
    unfold density_model. cbn [exec]. rewrite Hc. cbn [exec raise tbind]. apply teq_eq. reflexivity.
  - intros Hx. unfold kernel_prog. cbn [run kernel_model]. eexists. eapply teq_trans; [apply forward_eq; apply call_ok_prog; [apply ordinary_ok, Hk|reflexivity]|].
    cbn [kernel_model]. rewrite Hx. cbn [exec raise tbind]. apply teq_eq. reflexivity.
Qed.
Print Assumptions C76_refuses.

(** Passing by keyword what a model takes by position is a TypeError, and nothing is run. *)
Theorem C17_positional : forall (L : lib) oid sg (m : pyval (T L) -> dict (pyval (T L)) -> model L) c kws s k,
  In k (dkeys kws) -> (k = "self" \/ In k (firstn 3 (s_args sg))) ->
  run (IProg oid sg m) c kws s = Leaf (Err TypeError, s).
Proof.
  intros L oid sg m c kws s k Hin Hk. cbn [run]. unfold forward.
  match goal with |- (if ?a || ?b then _ else _) _ = _ => assert (Hc : a || b = true); [|rewrite Hc; reflexivity] end.
  apply orb_true_iff. destruct Hk as [-> | Hk]; [left|right].
  - unfold clash. apply existsb_exists. apply in_map_iff in Hin. destruct Hin as (x & E & Hx). exists x. split; [exact Hx|]. rewrite E. reflexivity.
  - unfold clash. apply existsb_exists.
    assert (Hp : check_passable_kwarg k sg = true).
    { unfold check_passable_kwarg. apply orb_true_iff. right. apply mem_In.
      rewrite <- (firstn_skipn 3 (s_args sg)). apply in_or_app. left. exact Hk. }
    match goal with |- exists x, In x (filter ?f ?all) /\ _ => assert (Hall : In k (dkeys all)) end.
    { apply In_dkeys_dmerge. destruct (mem k ["sample_dims"; "batch_dim"; "reparameterized"]) eqn:E; [left; apply mem_In, E|right].
      apply in_map_iff in Hin. destruct Hin as ([k' v] & E' & Hx). cbn in E'. subst k'.
      apply in_map_iff. exists (k, v). split; [reflexivity|]. apply filter_In. split; [exact Hx|]. cbn [fst]. rewrite E. reflexivity. }
    apply in_map_iff in Hall. destruct Hall as ([k' v] & E & Hx). cbn in E. subst k'. exists (k, v). split; [|apply mem_In, Hk].
    apply filter_In. split; [exact Hx|exact Hp].
Qed.
Print Assumptions C17_positional.
(** a model declared [def model(self, trace, x, **kws)] and called with the keyword argument x *)
Example C17_positional_case :
  In "x" (dkeys [("x", VInt (T := ZT) 1)]) /\ In "x" (firstn 3 (s_args (mkSig ["self"; "trace"; "x"] [] true))).
Proof. split; cbn; tauto. Qed.

(** ** an instance: an ordinary call under a substitution *)
Example C76_case :
  let given : trace ZL := [("g1", mkRV (L := ZL) (Proper (L := ZL) 3%Z) (zten 7) (zten 0) SAMPLED true true)] in
  let s := set_cond 5 (Some given) (st0 ZL) in
  ordinary (L := ZL) [("sample_shape", VTup [VInt 4; VInt 1])] /\ accepted (L := ZL) [("sample_shape", VTup [VInt 4; VInt 1])] /\
  get_cond 5 s = Some given /\ In "g1" (latent_addrs given).
Proof.
  cbv zeta. split; [split; [repeat constructor; cbn; intuition discriminate|]|].
  - intros k Hk Hin. cbn in Hk, Hin. intuition (subst; discriminate).
  - split; [intros b p; reflexivity|]. split; [reflexivity|left; reflexivity].
Qed.
