(** Running the models of the Gibbs experiment. *)
From Verif Require Export Gibbs RunEq.
From Verif Require Import Prop_Gibbs.
Open Scope nat_scope.

Section Always.
  Context {L : lib}.
  Definition always {A} (t : stree L A) (P : A -> Prop) : Prop := forall a, outcome t a -> P a.
  Lemma always_leaf {A} (a : A) (P : A -> Prop) : P a -> always (Leaf a) P.
  Proof. intros H b Hb. apply outcome_leaf in Hb. subst b. exact H. Qed.
  Lemma always_draw {A} d (k : T L -> stree L A) P : (forall v, always (k v) P) -> always (Draw d k) P.
  Proof. intros H a Ha. apply outcome_draw in Ha. destruct Ha as [v Hv]. exact (H v a Hv). Qed.
  Lemma always_tbind {A B} (t : stree L A) (f : A -> stree L B) P : always t (fun a => always (f a) P) -> always (tbind t f) P.
  Proof. intros H b Hb. apply outcome_tbind in Hb. destruct Hb as (a & Ha & Hb). exact (H a Ha b Hb). Qed.
  Lemma always_impl {A} (t : stree L A) (P Q : A -> Prop) : always t P -> (forall a, P a -> Q a) -> always t Q.
  Proof. intros H HPQ a Ha. apply HPQ, H, Ha. Qed.
  Lemma teq_outcome {A} (t t' : stree L A) a : teq t t' -> outcome t a -> outcome t' a.
  Proof. intros E H. apply outcome_path in H. destruct H as [ds H]. eapply path_outcome, teq_path; [exact E|exact H]. Qed.
  Lemma always_teq {A} (t t' : stree L A) P : teq t t' -> always t' P -> always t P.
  Proof. intros E H a Ha. apply H. eapply teq_outcome; [exact E|exact Ha]. Qed.
End Always.

Section Exec.
  Context {L : lib}.
  Notation pyval := (pyval (T L)). Notation trace := (trace L). Notation rv := (rv L).

  (** the node a model gets for a variable without a value *)
  Definition looked_up (cond : option trace) (name : string) : option rv :=
    match cond with Some ct => dget name ct | None => None end.
  Definition node_of (cond : option trace) (name : string) (d : D L) (rep : bool) (nd : rv) : Prop :=
    exists v p, nd = mkRV (Proper d) v (logp L d v) p rep true /\
      match looked_up cond name with Some r0 => v = rv_value r0 /\ p = REUSED | None => p = SAMPLED end.

  Lemma exec_var cond name d rep k (tr : trace) s x :
    outcome (exec cond (MVar name d None rep k) tr s) x ->
    exists nd, node_of cond name d rep nd /\
      if dmem name tr then x = (Err ValueError, s)
      else outcome (exec cond (k (rv_value nd)) (tr ++ [(name, nd)]) s) x.
  Proof.
    cbn [exec]. unfold node_of, looked_up.
    assert (F : forall v p, outcome (mbind (lift (add_node name (mkRV (Proper d) v (logp L d v) p rep true) tr))
                (fun tr' => exec cond (k v) tr') s) x ->
      if dmem name tr then x = (Err ValueError, s)
      else outcome (exec cond (k v) (tr ++ [(name, mkRV (Proper d) v (logp L d v) p rep true)]) s) x).
    { intros v p. rewrite mbind_lift. unfold add_node. destruct (dmem name tr) eqn:Em.
      - intros H. apply outcome_leaf in H. auto.
      - rewrite dset_new by (apply dmem_not_In, Em). auto. }
    destruct (match cond with Some ct => dget name ct | None => None end) as [r0|] eqn:El.
    - intros H. apply F in H. eexists. split; [exists (rv_value r0), REUSED; split; [reflexivity|]; auto|exact H].
    - intros H. apply outcome_draw in H. destruct H as [v H]. apply F in H.
      eexists. split; [exists v, SAMPLED; split; reflexivity|exact H].
  Qed.

  Lemma always_var cond name d rep k (tr : trace) s P : ~ In name (dkeys tr) ->
    (forall nd, node_of cond name d rep nd -> always (exec cond (k (rv_value nd)) (tr ++ [(name, nd)]) s) P) ->
    always (exec cond (MVar name d None rep k) tr s) P.
  Proof.
    intros Hn H x Hx. apply exec_var in Hx. destruct Hx as (nd & Hnd & Hx).
    apply dmem_not_In in Hn. rewrite Hn in Hx. exact (H nd Hnd x Hx).
  Qed.
  Lemma always_value cond name d v p rep k (tr : trace) s P : ~ In name (dkeys tr) ->
    always (exec cond (k v) (tr ++ [(name, mkRV (Proper d) v (logp L d v) p rep true)]) s) P ->
    always (exec cond (MVar name d (Some (v, Some p)) rep k) tr s) P.
  Proof.
    intros Hn H. cbn [exec]. rewrite mbind_lift. unfold add_node. pose proof Hn as Hn'. apply dmem_not_In in Hn. rewrite Hn.
    rewrite dset_new by exact Hn'. exact H.
  Qed.
  Lemma always_objects cond d n k (tr : trace) s P : forall acc,
    (forall zs, always (exec cond (k zs) tr s) P) -> always (exec cond (draw_objects L d n acc k) tr s) P.
  Proof.
    induction n as [|n IH]; intros acc H; cbn [draw_objects]; [apply H|]. cbn [exec]. apply always_draw. intros v. apply IH, H.
  Qed.

  Definition tensor_at (key : string) (d : dict pyval) : Prop := exists x, dget key d = Some (VTensor x).

  Lemma exec_stored cond key k (tr : trace) s x :
    outcome (exec cond (stored L key k) tr s) x ->
    (exists v, dget key (store s) = Some (VTensor v) /\ outcome (exec cond (k v) tr s) x) \/
    (~ tensor_at key (store s) /\ exists e, x = (Err e, s)).
  Proof.
    unfold stored. cbn [exec]. unfold tensor_at. destruct (dget key (store s)) as [[]|]; intros H.
    5:{ left. eauto. }
    all: right; cbn [exec] in H; apply outcome_leaf in H; split; [intros [y Hy]; discriminate|eauto].
  Qed.
  Lemma always_stored cond key k (tr : trace) s P : tensor_at key (store s) ->
    (forall v, dget key (store s) = Some (VTensor v) -> always (exec cond (k v) tr s) P) ->
    always (exec cond (stored L key k) tr s) P.
  Proof.
    intros Ht H x Hx. apply exec_stored in Hx. destruct Hx as [(v & Hv & Hx)|[Hn _]]; [exact (H v Hv x Hx)|contradiction].
  Qed.

  Context (N : nets L).
  (** the node of one site of the decoder's chain *)
  Definition site_node (cond : option trace) (s : st L) (site : string * option string) (kv : string * rv) : Prop :=
    fst kv = fst site /\
    match snd site with
    | None => node_of cond (fst site) (prior_where0 L N) (reparam L N) (snd kv)
    | Some key => exists loc, dget key (store s) = Some (VTensor loc) /\
                  node_of cond (fst site) (prior_wheret L N loc) (reparam L N) (snd kv)
    end.

  Lemma exec_where cond k s o tr' s' : forall sites acc (tr : trace),
    outcome (exec cond (get_z_where L N sites acc k) tr s) (Ok (o, tr'), s') ->
    exists nodes, Forall2 (site_node cond s) sites nodes /\
      outcome (exec cond (k (acc ++ map (fun kv => rv_value (snd kv)) nodes)) (tr ++ nodes) s) (Ok (o, tr'), s').
  Proof.
    induction sites as [|[name [key|]] sites IH]; intros acc tr H; cbn [get_z_where] in H.
    - exists []. split; [constructor|]. cbn [map]. rewrite !app_nil_r. exact H.
    - apply exec_stored in H. destruct H as [(loc & Hl & H)|[_ [e E]]]; [|discriminate].
      apply exec_var in H. destruct H as (nd & Hnd & H). destruct (dmem name tr); [discriminate|].
      apply IH in H. destruct H as (nodes & HF & H). exists ((name, nd) :: nodes). split.
      + constructor; [|exact HF]. split; [reflexivity|]. exists loc. auto.
      + cbn [map snd]. rewrite <- !app_assoc in H. exact H.
    - apply exec_var in H. destruct H as (nd & Hnd & H). destruct (dmem name tr); [discriminate|].
      apply IH in H. destruct H as (nodes & HF & H). exists ((name, nd) :: nodes). split.
      + constructor; [|exact HF]. split; [reflexivity|]. exact Hnd.
      + cbn [map snd]. rewrite <- !app_assoc in H. exact H.
  Qed.
  Lemma always_where cond k s P : forall sites acc (tr : trace),
    NoDup (dkeys tr ++ map fst sites) ->
    (forall name key, In (name, Some key) sites -> tensor_at key (store s)) ->
    (forall nodes, Forall2 (site_node cond s) sites nodes ->
       always (exec cond (k (acc ++ map (fun kv => rv_value (snd kv)) nodes)) (tr ++ nodes) s) P) ->
    always (exec cond (get_z_where L N sites acc k) tr s) P.
  Proof.
    induction sites as [|[name src] sites IH]; intros acc tr Hnd Hst H; cbn [get_z_where].
    - specialize (H [] (Forall2_nil _)). cbn [map] in H. rewrite !app_nil_r in H. exact H.
    - assert (Hname : ~ In name (dkeys tr)).
      { cbn [map fst] in Hnd. apply NoDup_remove_2 in Hnd. intros Hin. apply Hnd, in_or_app. auto. }
      assert (Hnext : forall d nd, (match src with
                | None => d = prior_where0 L N
                | Some key => exists loc, dget key (store s) = Some (VTensor loc) /\ d = prior_wheret L N loc end) ->
                node_of cond name d (reparam L N) nd ->
        always (exec cond (get_z_where L N sites (acc ++ [rv_value nd]) k) (tr ++ [(name, nd)]) s) P).
      { intros d nd Hd Hn. apply IH.
        - rewrite dkeys_app. cbn [dkeys map fst]. rewrite <- app_assoc. exact Hnd.
        - intros n0 k0 Hin. eapply Hst. right. exact Hin.
        - intros nodes HF. specialize (H ((name, nd) :: nodes)). cbn [map snd] in H. rewrite <- !app_assoc. apply H.
          constructor; [|exact HF]. split; [reflexivity|]. cbn [fst snd]. destruct src as [key|].
          + destruct Hd as (loc & Hl & ->). exists loc. auto.
          + subst d. exact Hn. }
      destruct src as [key|].
      + apply always_stored; [eapply Hst; left; reflexivity|]. intros loc Hl. apply always_var; [exact Hname|].
        intros nd Hn. eapply Hnext; [|exact Hn]. exists loc. auto.
      + apply always_var; [exact Hname|]. intros nd Hn. eapply Hnext; [|exact Hn]. reflexivity.
  Qed.

  Lemma exec_read cond k (tr : trace) s o tr' s' : forall ks acc,
    outcome (exec cond (read_stored L ks acc k) tr s) (Ok (o, tr'), s') ->
    exists acc', outcome (exec cond (k acc') tr s) (Ok (o, tr'), s').
  Proof.
    induction ks as [|key ks IH]; intros acc H; cbn [read_stored] in H; [exists acc; exact H|].
    apply exec_stored in H. destruct H as [(v & _ & H)|[_ [e E]]]; [|discriminate]. apply IH in H. exact H.
  Qed.
  Lemma always_read cond k (tr : trace) s P : forall ks acc,
    (forall key, In key ks -> tensor_at key (store s)) ->
    (forall acc', (forall key, (In key ks \/ tensor_at key acc) -> tensor_at key acc') ->
                  (forall key, In key (dkeys acc') -> In key ks \/ In key (dkeys acc)) ->
                  (wf_dict acc -> wf_dict acc') -> always (exec cond (k acc') tr s) P) ->
    always (exec cond (read_stored L ks acc k) tr s) P.
  Proof.
    induction ks as [|key ks IH]; intros acc Hst H; cbn [read_stored].
    - apply H; [intros key [[]|Hk]; exact Hk|auto|auto].
    - apply always_stored; [apply Hst; left; reflexivity|]. intros v Hv. apply IH; [intros k0 Hk0; apply Hst; right; exact Hk0|].
      intros acc' H1 H2 H3. apply H.
      + intros k0 Hk0. apply H1. unfold tensor_at. rewrite dget_dset. destruct (String.eqb_spec k0 key) as [->|Hne].
        * right. eauto.
        * destruct Hk0 as [[->|Hk0]|Hk0]; [congruence|auto|auto].
      + intros k0 Hk0. apply H2 in Hk0. rewrite In_dkeys_dset in Hk0. cbn [In]. destruct Hk0 as [Hk0|[->|Hk0]]; auto.
      + intros Hwf. apply H3, wf_dset, Hwf.
  Qed.

  Lemma prog_kwargs_ix (sg : sig) (kws : dict pyval) :
    In "ix" (s_args sg) -> wf_dict kws -> kwarg "ix" VNone (prog_kwargs sg kws) = kwarg "ix" VNone kws.
  Proof.
    intros Hin Hk. unfold prog_kwargs, kwarg at 1.
    rewrite (dget_filter "ix" (fun k => check_passable_kwarg k sg)).
    assert (E : check_passable_kwarg "ix" sg = true).
    { unfold check_passable_kwarg. apply mem_In in Hin. rewrite Hin. apply orb_true_r. }
    rewrite E, dget_dmerge by apply wf_filter, Hk.
    rewrite (dget_filter "ix" (fun k => negb (mem k ["sample_dims"; "batch_dim"; "reparameterized"]))). cbn [mem existsb String.eqb Ascii.eqb Bool.eqb orb negb].
    cbn. unfold kwarg. destruct (dget "ix" kws); reflexivity.
  Qed.
End Exec.

(** ** the sites of the decoder's chain *)
Lemma where_site_name ix_t sweep t : fst (where_site ix_t sweep t) = z_where (Z.of_nat t) (if (Z.of_nat t <=? ix_t)%Z then sweep else (sweep - 1)%Z).
Proof. unfold where_site. destruct (_ <=? _)%Z; [reflexivity|]. destruct (_ =? _)%Z; reflexivity. Qed.
Lemma where_names_NoDup ix_t sweep : forall n, NoDup (map fst (map (where_site ix_t sweep) (seq 0 n))).
Proof.
  intros n. rewrite map_map. assert (H := seq_NoDup n 0). induction H as [|t l Hn Hl IH]; cbn [map]; constructor; [|exact IH].
  intros Hin. apply in_map_iff in Hin. destruct Hin as (t' & E & Hin). rewrite !where_site_name in E.
  apply z_where_inj in E. destruct E as [E _]. apply Nat2Z.inj in E. subst t'. contradiction.
Qed.
Lemma where_names_In ix_t sweep a n : In a (map fst (map (where_site ix_t sweep) (seq 0 n))) <->
  exists t, t < n /\ a = fst (where_site ix_t sweep t).
Proof.
  rewrite map_map, in_map_iff. split.
  - intros (t & <- & Hin). apply in_seq in Hin. exists t. split; [lia|reflexivity].
  - intros (t & Ht & ->). exists t. split; [reflexivity|]. apply in_seq. lia.
Qed.
Lemma Forall2_nth_seq {A B} (R : A -> B -> Prop) (f : nat -> A) (n : nat) (l : list B) : Forall2 R (map f (seq 0 n)) l ->
  forall t, t < n -> exists b, nth_error l t = Some b /\ R (f t) b.
Proof.
  assert (H : forall m n l, Forall2 R (map f (seq m n)) l -> forall t, t < n -> exists b, nth_error l t = Some b /\ R (f (m + t)) b).
  { clear. intros m n. revert m. induction n as [|n IH]; intros m l HF t Ht; [lia|]. cbn [seq map] in HF. inversion HF; subst.
    destruct t as [|t]; [exists y; rewrite Nat.add_0_r; auto|]. destruct (IH _ _ H3 t ltac:(lia)) as (b & Hb & HR).
    exists b. split; [exact Hb|]. replace (m + S t) with (S m + t) by lia. exact HR. }
  intros HF t Ht. exact (H 0 n l HF t Ht).
Qed.
Lemma site_nodes_keys {L} (N : nets L) cond s sites nodes : Forall2 (site_node N cond s) sites nodes -> dkeys nodes = map fst sites.
Proof. induction 1 as [|a b l l' H HF IH]; [reflexivity|]. cbn [dkeys map]. destruct H as [H _]. rewrite H. f_equal. exact IH. Qed.

(** What the decoder's trace holds, whenever it returns *)
Lemma dec_returns {L} (N : nets L) c kws s o s' fr ix_t sweep dir :
  wf_dict kws -> item L c "frames" = Ok fr -> kwarg "ix" VNone kws = apg_ix L ix_t sweep dir ->
  returns (run (dec L N) c kws) s o s' ->
  exists nodes zi ndw ndr,
    Forall2 (site_node N (get_cond 3 s) s) (map (where_site ix_t sweep) (seq 0 (n_frames L N fr))) nodes /\
    what_index (n_frames L N fr) ix_t sweep = Ok zi /\
    out_trace o = nodes ++ [(z_what zi, ndw); ("recon", ndr)].
Proof.
  intros Hk Hfr Hix H. unfold dec in H. cbn [run] in H. unfold returns in H.
  destruct (clash ["self"] kws || clash (firstn 3 (s_args (mkSig ["self"; "trace"; "c"; "ix"; "EPS"] [] false)))
      (prog_kwargs (mkSig ["self"; "trace"; "c"; "ix"; "EPS"] [] false) kws)) eqn:Ec.
  { unfold forward in H. fold (k_sd kws) (k_bd kws) (k_rep kws) in H. fold (prog_kwargs (mkSig ["self"; "trace"; "c"; "ix"; "EPS"] [] false) kws) in H.
    rewrite Ec in H. apply outcome_leaf in H. discriminate. }
  assert (Hx := teq_outcome _ _ _ (forward_eq 3 _ (dec_model L N) c kws s Ec) H). clear H. apply outcome_tbind in Hx. destruct Hx as ([r s1] & H1 & H2).
  unfold after in H2. cbn [fst snd] in H2. destruct r as [[v tr]|e]; [|apply outcome_leaf in H2; discriminate].
  apply outcome_leaf in H2. cbn [prog_tail] in H2.
  destruct (log_joint _ _ _ _ _) as [lw|e]; cbn [rbind] in H2; [|discriminate]. injection H2 as <- <-. cbn [out_trace].
  unfold dec_model in H1. rewrite prog_kwargs_ix, Hix in H1; [|cbn; tauto|exact Hk]. cbn [of_ix apg_ix] in H1.
  rewrite Hfr in H1. cbn [of_res] in H1. apply exec_where in H1. destruct H1 as (nodes & HF & H1).
  cbn [app] in H1. destruct (what_index _ _ _) as [zi|e] eqn:Ez; cbn [of_res] in H1; [|apply outcome_leaf in H1; discriminate].
  apply exec_var in H1. destruct H1 as (ndw & _ & H1). destruct (dmem _ _); [discriminate|].
  cbn [exec] in H1. rewrite mbind_lift in H1. unfold add_node in H1.
  destruct (dmem "recon" _) eqn:Em; [apply outcome_leaf in H1; discriminate|].
  rewrite dset_new in H1 by (apply dmem_not_In, Em).
  apply exec_read in H1. destruct H1 as (acc' & H1). cbn [exec] in H1. apply outcome_leaf in H1. injection H1 as <- <- <-.
  exists nodes, zi, ndw. eexists. split; [exact HF|]. split; [reflexivity|]. rewrite <- app_assoc. reflexivity.
Qed.
