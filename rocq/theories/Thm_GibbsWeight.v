(** The weights of the Gibbs experiment. *)
From Verif Require Export Thm_GibbsRun SpecGibbsWeight Thm_Propose Thm_Combinators Thm_Program.
From Verif Require Import Prop_Gibbs.
Open Scope nat_scope.

Definition is_ok {A} (r : res A) : bool := match r with Ok _ => true | Err _ => false end.

Section Programs.
  Context {L : lib}.
  Notation pyval := (pyval (T L)). Notation trace := (trace L). Notation out := (out L).

  Lemma prog_exec oid sg m c (kws : dict pyval) s (o : out) s' : plain_call kws -> firstn 3 (s_args sg) = ["self"; "trace"; "c"] ->
    returns (run (IProg oid sg m) c kws) s o s' ->
    outcome (exec (get_cond oid s) (m c (prog_kwargs sg kws)) [] (log_call (mkCall oid c (prog_kwargs sg kws) (get_cond oid s)) s))
      (Ok (out_output o, out_trace o), s').
  Proof.
    intros Hp Hs H. unfold returns in H. cbn [run] in H.
    apply (teq_outcome _ _ _ (forward_eq oid sg m c kws s (plain_prog sg kws Hp Hs))) in H.
    apply outcome_tbind in H. destruct H as ([r s1] & H1 & H2).
    unfold after in H2. cbn [fst snd] in H2. destruct r as [[v tr]|e]; [|apply outcome_leaf in H2; discriminate].
    apply outcome_leaf in H2. cbn [prog_tail] in H2.
    destruct (log_joint _ _ _ _ _) as [lw|e]; cbn [rbind] in H2; [|discriminate]. injection H2 as <- <-. exact H1.
  Qed.

  Lemma item_inv (d : dict pyval) k x : item L (VDict d) k = Ok x -> dget k d = Some (VTensor x).
  Proof. unfold item. destruct (dget k d) as [[]|]; try discriminate. intros [= <-]. reflexivity. Qed.
  Lemma items_inv (d : dict pyval) : forall ks l, items_of L (VDict d) ks = Ok l -> Forall2 (fun k x => dget k d = Some (VTensor x)) ks l.
  Proof.
    induction ks as [|k ks IH]; intros l; cbn [items_of]; [intros [= <-]; constructor|].
    destruct (item L (VDict d) k) as [x|] eqn:E; cbn [rbind]; [|discriminate]. destruct (items_of L (VDict d) ks) as [l'|]; cbn [rmap rbind]; [|discriminate].
    intros [= <-]. constructor; [apply item_inv, E|apply IH; reflexivity].
  Qed.
  Lemma exec_res {A} cond (r : res A) k (tr : trace) s x : outcome (exec cond (of_res L r k) tr s) x -> is_ok (fst x) = true ->
    exists a, r = Ok a /\ outcome (exec cond (k a) tr s) x.
  Proof. destruct r as [a|e]; cbn [of_res]; [eauto|]. cbn [exec]. intros H Hx. apply outcome_leaf in H. subst x. discriminate. Qed.
  Lemma exec_value cond name d v p rep k (tr : trace) s x :
    outcome (exec cond (MVar name d (Some (v, Some p)) rep k) tr s) x -> is_ok (fst x) = true ->
    ~ In name (dkeys tr) /\ outcome (exec cond (k v) (tr ++ [(name, mkRV (Proper d) v (logp L d v) p rep true)]) s) x.
  Proof.
    intros H Hx. cbn [exec] in H. rewrite mbind_lift in H. unfold add_node in H. destruct (dmem name tr) eqn:E.
    - apply outcome_leaf in H. subst x. discriminate.
    - apply dmem_not_In in E. rewrite dset_new in H by exact E. auto.
  Qed.
  Lemma exec_objects cond d k (tr : trace) s x : forall n acc, outcome (exec cond (draw_objects L d n acc k) tr s) x ->
    exists zs, outcome (exec cond (k zs) tr s) x.
  Proof.
    induction n as [|n IH]; intros acc H; cbn [draw_objects] in H; [eauto|]. cbn [exec] in H. apply outcome_draw in H. destruct H as [v H]. eapply IH, H.
  Qed.
  Lemma exec_read_store cond k (tr : trace) s x : is_ok (fst x) = true -> forall ks acc,
    outcome (exec cond (read_stored L ks acc k) tr s) x ->
    exists acc', outcome (exec cond (k acc') tr s) x /\
      (forall key, In key ks -> tensor_at (L := L) key (store s)) /\
      (forall key, dget key acc' = if mem key ks then dget key (store s) else dget key acc).
  Proof.
    intros Hx. induction ks as [|key ks IH]; intros acc H; cbn [read_stored] in H; [exists acc; split; [exact H|]; split; [intros ? []|reflexivity]|].
    apply exec_stored in H. destruct H as [(v & Hv & H)|[_ [e ->]]]; [|discriminate]. apply IH in H. destruct H as (acc' & H & H1 & H2).
    exists acc'. split; [exact H|]. split; [intros k' [<-|Hk']; [exists v; exact Hv|apply H1, Hk']|].
    intros k'. rewrite H2. cbn [mem existsb]. destruct (mem k' ks) eqn:E; unfold mem in E.
    - rewrite E, orb_true_r. reflexivity.
    - rewrite E, orb_false_r, dget_dset. destruct (String.eqb_spec k' key) as [->|]; [congruence|reflexivity].
  Qed.

  Context (N : nets L).

  Lemma coor_fwd_returns kws s d o s' t sweep : plain_call kws -> kwarg "ix" VNone kws = apg_ix L t sweep "forward" ->
    returns (run (enc_coor L N) (VDict d) kws) s o s' ->
    exists f kr zs, let dd := coor_all L N f kr t zs in let z := coor_cat L N zs in
      dget "frames" d = Some (VTensor f) /\
      (if Z.eqb sweep 0 then kr = None else exists w, kr = Some w /\ dget (z_what (sweep - 1)) d = Some (VTensor w)) /\
      out_trace o = [(z_where t sweep, mkRV (Proper dd) z (logp L dd z) SAMPLED (reparam L N) true)] /\
      out_output o = VDict (if Z.eqb sweep 0 then dset (z_where t sweep) (VTensor z) d else d) /\
      store s' = dset (z_where t sweep) (VTensor z) (store s).
  Proof.
    intros Hp Hix H. apply prog_exec in H; [|exact Hp|reflexivity]. unfold enc_coor_model in H.
    rewrite prog_kwargs_ix, Hix in H; [|cbn; tauto|apply Hp]. cbn [of_ix apg_ix] in H.
    apply exec_res in H; [|reflexivity]. destruct H as (f & Hf & H). apply item_inv in Hf.
    apply exec_res in H; [|reflexivity]. destruct H as (kr & Hk & H).
    destruct (_ || _); [apply outcome_leaf in H; discriminate|].
    cbn [is_forward mem existsb String.eqb Ascii.eqb Bool.eqb orb of_res] in H.
    apply exec_objects in H. destruct H as (zs & H). apply exec_value in H; [|reflexivity]. destruct H as (_ & H).
    cbn [exec app] in H. apply outcome_leaf in H. injection H as E1 E2 E3.
    exists f, kr, zs. cbn zeta. split; [exact Hf|]. split.
    { destruct (Z.eqb sweep 0); [congruence|]. destruct (item L (VDict d) (z_what (sweep - 1))) as [w|] eqn:E; [|discriminate].
      injection Hk as <-. exists w. split; [reflexivity|apply item_inv, E]. }
    split; [symmetry; exact E2|]. split; [rewrite <- E1; destruct (Z.eqb sweep 0); reflexivity|rewrite <- E3; reflexivity].
  Qed.

  Lemma coor_rev_returns kws s d o s' t sweep ct nd' : plain_call kws -> kwarg "ix" VNone kws = apg_ix L t sweep "reverse" ->
    sweep <> 0%Z -> get_cond 1 s = Some ct -> dget (z_where t (sweep - 1)) ct = Some nd' ->
    returns (run (enc_coor L N) (VDict d) kws) s o s' ->
    exists f w, let v := rv_value nd' in let dd := coor_all L N f (Some w) t (map (coor_slice L N v) (seq 0 (n_objects L N))) in
      dget "frames" d = Some (VTensor f) /\ dget (z_what (sweep - 1)) d = Some (VTensor w) /\
      out_trace o = [(z_where t (sweep - 1), mkRV (Proper dd) v (logp L dd v) REUSED (reparam L N) true)] /\ store s' = store s.
  Proof.
    intros Hp Hix Hne Hc Hnd H. apply prog_exec in H; [|exact Hp|reflexivity]. unfold enc_coor_model in H.
    rewrite prog_kwargs_ix, Hix in H; [|cbn; tauto|apply Hp]. cbn [of_ix apg_ix] in H.
    apply exec_res in H; [|reflexivity]. destruct H as (f & Hf & H). apply item_inv in Hf.
    apply exec_res in H; [|reflexivity]. destruct H as (kr & Hk & H).
    destruct (_ || _); [apply outcome_leaf in H; discriminate|].
    cbn [is_forward mem existsb String.eqb Ascii.eqb Bool.eqb orb of_res] in H.
    cbn [exec] in H. rewrite Hc, Hnd in H. apply exec_var in H. destruct H as (nd & (v & p & -> & Hv) & H).
    unfold looked_up in Hv. rewrite Hnd in Hv. destruct Hv as [-> ->]. cbn [dmem dget] in H.
    change (if dmem (z_where t (sweep - 1)) [] then _ else _) with (outcome (exec (Some ct) (MRet VNone) ([] ++ [(z_where t (sweep - 1), mkRV (Proper (coor_all L N f kr t (map (coor_slice L N (rv_value nd')) (seq 0 (n_objects L N))))) (rv_value nd') (logp L (coor_all L N f kr t (map (coor_slice L N (rv_value nd')) (seq 0 (n_objects L N)))) (rv_value nd')) REUSED (reparam L N) true)]) (log_call (mkCall 1 (VDict d) (prog_kwargs enc_sig kws) (Some ct)) s)) (Ok (out_output o, out_trace o), s')) in H.
    cbn [exec app] in H. apply outcome_leaf in H. injection H as E1 E2 <-.
    destruct (Z.eqb_spec sweep 0); [contradiction|]. destruct (item L (VDict d) (z_what (sweep - 1))) as [w|] eqn:E; [|discriminate].
    injection Hk as <-. exists f, w. cbn zeta. split; [exact Hf|]. split; [apply item_inv, E|]. split; [symmetry; exact E2|reflexivity].
  Qed.

  Lemma digit_returns kws s d o s' t sweep dir fwd : plain_call kws -> kwarg "ix" VNone kws = apg_ix L t sweep dir ->
    is_forward dir = Ok fwd -> returns (run (enc_digit L N) (VDict d) kws) s o s' ->
    let name := z_what (if fwd then sweep else sweep - 1)%Z in
    exists f ws nd, dget "frames" d = Some (VTensor f) /\
      Forall2 (fun k x => dget k d = Some (VTensor x)) (map (fun i => z_where (Z.of_nat i) sweep) (seq 0 (n_frames L N f))) ws /\
      node_of (get_cond 2 s) name (digit_all L N f ws) (reparam L N) nd /\
      out_trace o = [(name, nd)] /\ store s' = if fwd then dset name (VTensor (rv_value nd)) (store s) else store s.
  Proof.
    intros Hp Hix Hdir H name. apply prog_exec in H; [|exact Hp|reflexivity]. unfold enc_digit_model in H.
    rewrite prog_kwargs_ix, Hix in H; [|cbn; tauto|apply Hp]. cbn [of_ix apg_ix] in H.
    apply exec_res in H; [|reflexivity]. destruct H as (f & Hf & H). apply item_inv in Hf.
    apply exec_res in H; [|reflexivity]. destruct H as (w0 & _ & H).
    apply exec_res in H; [|reflexivity]. destruct H as (ws & Hws & H). apply items_inv in Hws.
    rewrite Hdir in H. cbn [of_res] in H. fold name in H.
    apply exec_var in H. destruct H as (nd & Hnd & H). 
    assert (E : dmem name (@nil (string * rv L)) = false) by reflexivity. rewrite E in H.
    exists f, ws, nd. split; [exact Hf|]. split; [exact Hws|]. split; [exact Hnd|].
    destruct fwd; cbn [exec app] in H; apply outcome_leaf in H; injection H as E1 <- <-; split; reflexivity.
  Qed.

  Lemma dec_full kws s c o s' fr ix_t sweep dir : plain_call kws -> item L c "frames" = Ok fr -> kwarg "ix" VNone kws = apg_ix L ix_t sweep dir ->
    returns (run (dec L N) c kws) s o s' ->
    exists nodes zi ndw acc, let wheres := map (fun kv => rv_value (snd kv)) nodes in let dr := recon L N wheres (rv_value ndw) in
      let ks := map (fun i => z_where (Z.of_nat i) sweep) (seq 0 (Nat.min (Z.to_nat (ix_t + 1)) (n_frames L N fr))) in
      Forall2 (site_node N (get_cond 3 s) s) (map (where_site ix_t sweep) (seq 0 (n_frames L N fr))) nodes /\
      what_index (n_frames L N fr) ix_t sweep = Ok zi /\ node_of (get_cond 3 s) (z_what zi) (prior_what L N) (reparam L N) ndw /\
      out_trace o = nodes ++ [(z_what zi, ndw); ("recon", mkRV (Proper dr) fr (logp L dr fr) OBSERVED (reparam L N) true)] /\
      out_output o = VDict (dset "frames" (VTensor fr) (dset (z_what zi) (VTensor (rv_value ndw)) acc)) /\
      (forall k, dget k acc = if mem k ks then dget k (store s) else None) /\
      (forall k, In k ks -> tensor_at (L := L) k (store s)) /\ store s' = store s.
  Proof.
    intros Hp Hfr Hix H. apply prog_exec in H; [|exact Hp|reflexivity]. unfold dec_model in H.
    rewrite prog_kwargs_ix, Hix in H; [|cbn; tauto|apply Hp]. cbn [of_ix apg_ix] in H.
    rewrite Hfr in H. cbn [of_res] in H. apply exec_where in H. destruct H as (nodes & HF & H). cbn [app] in H.
    apply exec_res in H; [|reflexivity]. destruct H as (zi & Hzi & H).
    apply exec_var in H. destruct H as (ndw & Hndw & H). destruct (dmem _ _); [discriminate|].
    apply exec_value in H; [|reflexivity]. destruct H as (_ & H).
    apply exec_read_store in H; [|reflexivity]. destruct H as (acc & H & Hks & Hacc).
    cbn [exec] in H. apply outcome_leaf in H. injection H as E1 E2 <-.
    exists nodes, zi, ndw, acc. cbn zeta. split; [exact HF|]. split; [exact Hzi|]. split; [exact Hndw|]. rewrite <- app_assoc in E2.
    split; [symmetry; exact E2|]. split; [symmetry; exact E1|]. split; [exact Hacc|]. split; [exact Hks|]. reflexivity.
  Qed.
End Programs.

Lemma Forall2_map_seq {A B} (R : A -> B -> Prop) (f : nat -> A) (g : nat -> B) n l :
  Forall2 R (map f (seq 0 n)) l -> (forall i b, i < n -> R (f i) b -> b = g i) -> l = map g (seq 0 n).
Proof.
  intros HF H. assert (G : forall m n l, Forall2 R (map f (seq m n)) l -> (forall i b, m <= i < m + n -> R (f i) b -> b = g i) -> l = map g (seq m n)).
  { clear. intros m n. revert m. induction n as [|n IH]; intros m l HF H; cbn [seq map] in *; inversion HF; subst; [reflexivity|].
    f_equal; [apply H; [lia|assumption]|]. apply IH; [assumption|]. intros i b Hi. apply H. lia. }
  apply (G 0 n l HF). intros i b Hi. apply H. lia.
Qed.
Lemma where_site_src (t i : nat) sweep :
  snd (where_site (Z.of_nat t) sweep i) = match i with O => None | S j => Some (z_where (Z.of_nat (Nat.min j t)) sweep) end.
Proof.
  unfold where_site. destruct i as [|j].
  - destruct (Z.leb_spec (Z.of_nat 0) (Z.of_nat t)); [reflexivity|lia].
  - destruct (Z.leb_spec (Z.of_nat (S j)) (Z.of_nat t)).
    + destruct (Z.eqb_spec (Z.of_nat (S j)) 0); [lia|]. cbn [snd]. do 2 f_equal. lia.
    + destruct (_ =? _)%Z; cbn [snd]; do 2 f_equal; lia.
Qed.
Lemma densities_dkeys {L : lib} (tr : trace L) : wf_dict tr -> map (density_at tr) (dkeys tr) = map (fun kv => rv_logp (snd kv)) tr.
Proof.
  intros Hwf. unfold dkeys. rewrite map_map. apply map_ext_in. intros [k nd] Hin. unfold density_at. cbn [fst snd].
  rewrite (In_dget _ _ _ Hwf Hin). reflexivity.
Qed.
Lemma logp_sum_all {L : lib} sd bd (tr : trace L) : logp_sum sd bd (fun _ _ => true) tr = tsum (map (bsum L sd bd) (map (fun kv => rv_logp (snd kv)) tr)).
Proof.
  unfold logp_sum. rewrite map_map. do 2 f_equal. induction tr as [|x tr IH]; [reflexivity|]. cbn [filter]. f_equal. exact IH.
Qed.
Lemma logp_sum_addresses {L : lib} (HL : lib_laws L) sd bd (tr : trace L) l : wf_dict tr -> NoDup l -> (forall a, In a (dkeys tr) <-> In a l) ->
  logp_sum sd bd (fun _ _ => true) tr = tsum (map (bsum L sd bd) (map (density_at tr) l)).
Proof.
  intros Hwf Hnd Hk. transitivity (logp_sum sd bd (fun a _ => mem a l) tr).
  - unfold logp_sum. do 2 f_equal. apply filter_ext_in. intros [k nd] Hin. symmetry. apply mem_In, Hk. apply (in_map fst) in Hin. exact Hin.
  - rewrite <- (tsum_names L HL) by assumption. rewrite map_map. f_equal. apply map_ext_in. intros a Ha. unfold density_at.
    apply Hk, In_dkeys in Ha. destruct Ha as [nd ->]. reflexivity.
Qed.
Lemma value_at_get {L : lib} (tr : trace L) a nd : dget a tr = Some nd -> value_at tr a = rv_value nd.
Proof. unfold value_at. intros ->. reflexivity. Qed.
Lemma dget_detach {L : lib} k (d : dict (pyval (T L))) v : dget k d = Some v ->
  dget k (map (fun kv => (fst kv, detach_entry (snd kv))) d) = Some (detach_entry v).
Proof. induction d as [|[k' v'] d IH]; cbn [dget map fst snd]; [discriminate|]. destruct (String.eqb k k'); [intros [= <-]; reflexivity|apply IH]. Qed.

Lemma subs_trace {L : lib} b l (o : out L) : out_trace (add_subs b l o) = out_trace o.
Proof. unfold add_subs. destruct b; reflexivity. Qed.
Lemma subs_output {L : lib} b l (o : out L) : out_output (add_subs b l o) = out_output o.
Proof. unfold add_subs. destruct b; reflexivity. Qed.
Lemma subs_lw {L : lib} b l (o : out L) : out_lw (add_subs b l o) = out_lw o.
Proof. unfold add_subs. destruct b; reflexivity. Qed.

Section Weights.
  Context {L : lib} (HL : lib_laws L) (HT : tensor_laws L) (Hlj : forall r b p, lj_ok L r b p = true).
  Notation pyval := (pyval (T L)). Notation trace := (trace L). Notation out := (out L).
  Context (N : nets L) (same : T L -> T L -> bool) (wmean : T L -> T L -> T L) (node_sum : T L -> T L) (rs : resampler L).
  Context (Hrs : keeps_addresses rs) (Hdet : forall x, n_frames L N (detach L x) = n_frames L N x).
  Context (T_ : nat) (Hpos : 0 < T_) (c0 : dict pyval) (fr : T L).
  Context (Hc0 : dget "frames" c0 = Some (VTensor fr)) (Hfr : n_frames L N fr = T_).
  Context (Hsame : forall x, same x x = true) (Hobs : keeps_observed rs).
  Notation calm := (calm same).
  Notation good := (good N same rs T_).
  Notation updated := (updated T_).
  Notation before := (before T_).
  Notation digits_at := (digits_at T_).

  Lemma posterior_in t s a : In a (posterior_addresses T_ t s) <-> (exists i, i < T_ /\ a = position_at t s i) \/ a = digits_at t s \/ a = "recon".
  Proof. exact (posterior_In N T_ Hpos fr Hfr t s a). Qed.
  Lemma posterior_NoDup t s : NoDup (posterior_addresses T_ t s).
  Proof.
    unfold posterior_addresses. replace (map (current_where (Z.of_nat t) (Z.of_nat s)) (seq 0 T_)) with (map fst (map (where_site (Z.of_nat t) (Z.of_nat s)) (seq 0 T_))).
    - fold (digits_at t s).
      assert (H1 : ~ In (digits_at t s) (map fst (map (where_site (Z.of_nat t) (Z.of_nat s)) (seq 0 T_)))).
      { rewrite where_names_In. intros (i & _ & E). rewrite where_site_name in E. discriminate. }
      assert (H2 : ~ In "recon" (map fst (map (where_site (Z.of_nat t) (Z.of_nat s)) (seq 0 T_)))).
      { rewrite where_names_In. intros (i & _ & E). rewrite where_site_name in E. discriminate. }
      pose proof (where_names_NoDup (Z.of_nat t) (Z.of_nat s) T_) as H. induction H as [|x l Hx Hl IH]; cbn [app].
      + repeat constructor; cbn; [intros [E|[]]; discriminate|tauto].
      + constructor.
        * rewrite in_app_iff. cbn [In]. intros [Hin|[E|[E|[]]]]; [contradiction|apply H1; left; symmetry; exact E|apply H2; left; symmetry; exact E].
        * apply IH; intros Hin; [apply H1|apply H2]; right; exact Hin.
    - rewrite map_map. apply map_ext. intros i. apply where_site_name.
  Qed.

  (** ** what a stage leaves behind *)
  Definition reads_back (t s : nat) (a : string) : Prop := a = digits_at t s \/ exists i, i < Nat.min (t + 1) T_ /\ a = z_where (Z.of_nat i) (Z.of_nat s).
  Definition stored_values (t s : nat) (tr : trace) (st : st L) : Prop := forall i, i < Nat.min (t + 1) T_ ->
    exists nd, dget (z_where (Z.of_nat i) (Z.of_nat s)) tr = Some nd /\ dget (z_where (Z.of_nat i) (Z.of_nat s)) (store st) = Some (VTensor (rv_value nd)).
  Definition current_output (t s : nat) (tr : trace) (v : pyval) : Prop := exists d, v = VDict d /\
    (exists f, dget "frames" d = Some (VTensor f) /\ same_tensor fr f) /\
    (forall a, reads_back t s a -> exists x nd, dget a d = Some (VTensor x) /\ dget a tr = Some nd /\ same_tensor (rv_value nd) x).
  Definition synced (t s : nat) (o : out) (st : st L) : Prop :=
    stored_values t s (out_trace o) st /\ current_output t s (out_trace o) (out_output o) /\
    (forall a nd, dget a (out_trace o) = Some nd -> is_observed nd = String.eqb a "recon").

  Lemma reads_back_posterior t s a : reads_back t s a -> In a (posterior_addresses T_ t s) /\ a <> "recon" /\ a <> "frames".
  Proof.
    intros [->|(i & Hi & ->)]; [split; [apply posterior_in; auto|split; discriminate]|]. split; [|split; discriminate].
    apply posterior_in. left. exists i. split; [lia|]. unfold position_at, current_where. destruct (Z.leb_spec (Z.of_nat i) (Z.of_nat t)); [reflexivity|lia].
  Qed.

  (** *** Resample *)
  Lemma resample_synced oid q t s kws s0 o s' : plain_call kws -> calm s0 ->
    (forall kws, plain_call kws -> always (run q (VDict c0) kws s0) (good t s)) ->
    (forall kws o1 s1, plain_call kws -> returns (run q (VDict c0) kws) s0 o1 s1 -> synced t s o1 s1) ->
    returns (run (resampled L rs oid q) (VDict c0) kws) s0 o s' -> synced t s o s'.
  Proof.
    intros Hp Hcalm Hg Hs H. apply run_resample_returns in H; [|apply Hp].
    destruct H as (qo & s1 & items & lw2 & c1 & c2 & st2 & _ & Hq & Hitems & Ec1 & Ec2 & Hh & -> & ->).
    assert (Hp1 : plain_call (sub_kwargs (L := L) VNone kws)) by apply plain_sub, Hp.
    pose proof (Hg _ Hp1 _ Hq) as Hgood. unfold Thm_GibbsRun.good in Hgood. cbn [fst snd] in Hgood.
    destruct Hgood as (Hwf & Hk & (d & Ed & _) & _ & Hcalm1).
    destruct (Hs _ _ _ Hp1 Hq) as (Hsync & (d' & Ed' & (f & Hf & Hfs) & Hcur) & Hrec).
    rewrite Ed' in Ec1. injection Ec1 as ->.
    pose proof (Hrs _ _ _ _ _ Hwf Hitems) as Hkeys.
    assert (Hget : forall k x, dget k c1 = Some (VTensor x) -> dget k c2 = Some (VTensor (match dget k (as_trace items) with Some nd => rv_value nd | None => x end))).
    { clear - Ec2. revert c2 Ec2. induction c1 as [|[k v] c1 IH]; intros c2; cbn [resample_output]; [discriminate|].
      destruct (dget k (as_trace items)) as [r|] eqn:Ek.
      - destruct v; cbn [rbind]; try discriminate. destruct (resample_output c1 (as_trace items)) as [c2'|]; cbn [rbind]; [|discriminate].
        intros [= <-] k' x. cbn [dget]. destruct (String.eqb_spec k' k) as [->|]; [rewrite Ek; reflexivity|apply IH; reflexivity].
      - cbn [rbind]. destruct (resample_output c1 (as_trace items)) as [c2'|]; cbn [rbind]; [|discriminate].
        intros [= <-] k' x. cbn [dget]. destruct (String.eqb_spec k' k) as [->|]; [rewrite Ek; intros [= ->]; reflexivity|apply IH; reflexivity]. }
    assert (Hnode : forall a, In a (posterior_addresses T_ t s) -> exists nd, dget a (as_trace items) = Some nd).
    { intros a Ha. apply In_dkeys, Hkeys, Hk, Ha. }
    unfold synced. rewrite subs_trace, subs_output. cbn [out_trace out_output].
    split; [|split].
    - intros i Hi. destruct (Hsync i Hi) as (nd & Hnd & Hst). destruct (Hnode (z_where (Z.of_nat i) (Z.of_nat s))) as [nd' Hnd'].
      { apply reads_back_posterior. right. exists i. auto. }
      exists nd'. split; [exact Hnd'|]. destruct Hcalm1 as [_ Hhk]. rewrite Hhk in Hh. unfold apg_hook in Hh. injection Hh as <-. cbn [set_store store].
      set (vals := fun t : trace => map (fun kv => (fst kv, rv_value (snd kv))) t).
      assert (Hv : forall k t, dget k (vals t) = option_map rv_value (dget k t)).
      { clear. intros k t. induction t as [|[a x] t IH]; [reflexivity|]. cbn [vals map dget fst snd]. destruct (String.eqb k a); [reflexivity|exact IH]. }
      assert (Hkv : dkeys (vals (out_trace qo)) = dkeys (out_trace qo)) by (unfold vals, dkeys; rewrite map_map; reflexivity).
      unfold resample_hook. fold (vals (out_trace qo)). fold (vals (as_trace items)). rewrite Hkv. rewrite hook_fold by exact Hwf.
      replace (mem _ _) with true by (symmetry; apply mem_In; eapply dget_In_keys, Hnd).
      unfold hook_step. rewrite Hst, !Hv, Hnd, Hnd'. cbn [option_map]. rewrite Hsame, dget_dset, String.eqb_refl. reflexivity.
    - exists c2. split; [reflexivity|]. split.
      + exists f. split; [|exact Hfs]. rewrite (Hget _ _ Hf).
        destruct (dget "frames" (as_trace items)) as [nd|] eqn:E; [|reflexivity]. exfalso.
        apply dget_In_keys, Hkeys, Hk, posterior_in in E. destruct E as [(i & _ & E)|[E|E]]; discriminate.
      + intros a Ha. destruct (Hcur a Ha) as (x & nd & Hx & _). destruct (Hnode a) as [nd' Hnd']; [apply reads_back_posterior, Ha|].
        exists (rv_value nd'), nd'. rewrite (Hget _ _ Hx), Hnd'. split; [reflexivity|]. split; [reflexivity|]. left. reflexivity.
    - intros a nd' Ha. assert (Hin : In a (dkeys (out_trace qo))) by (apply Hkeys; eapply dget_In_keys, Ha).
      apply In_dkeys in Hin. destruct Hin as [nd Hnd]. rewrite <- (Hrec _ _ Hnd). exact (Hobs _ _ _ _ _ Hwf Hitems _ _ _ Hnd Ha).
  Qed.

  (** *** the decoder *)
  Definition reused_node (d : D L) (x : T L) : rv L := mkRV (Proper d) x (logp L d x) REUSED (reparam L N) true.
  Definition decoder_trace (v : string -> T L) (t s : nat) : trace :=
    map (fun i => (position_at t s i, reused_node (position_prior N v t s i) (v (position_at t s i)))) (seq 0 T_)
    ++ [(digits_at t s, reused_node (prior_what L N) (v (digits_at t s)));
        ("recon", let d := recon L N (map (fun i => v (position_at t s i)) (seq 0 T_)) (v (digits_at t s)) in mkRV (Proper d) fr (logp L d fr) OBSERVED (reparam L N) true)].
  Lemma decoder_keys v t s : dkeys (decoder_trace v t s) = posterior_addresses T_ t s.
  Proof. unfold decoder_trace. rewrite dkeys_app. unfold posterior_addresses. f_equal. unfold dkeys. rewrite map_map. reflexivity. Qed.
  Lemma decoder_wf v t s : wf_dict (decoder_trace v t s).
  Proof. unfold wf_dict. rewrite decoder_keys. apply posterior_NoDup. Qed.
  Lemma decoder_logps v t s : map (fun kv => rv_logp (snd kv)) (decoder_trace v t s) = joint_logp N T_ fr v t s.
  Proof. unfold decoder_trace, joint_logp. rewrite map_app, map_map. reflexivity. Qed.
  Lemma decoder_get v t s a : In a (posterior_addresses T_ t s) -> a <> "recon" ->
    exists d, dget a (decoder_trace v t s) = Some (reused_node d (v a)).
  Proof.
    intros Ha Hne. apply posterior_in in Ha. destruct Ha as [(i & Hi & ->)|[->|E]]; [| |contradiction].
    - eexists. apply In_dget; [apply decoder_wf|]. unfold decoder_trace. apply in_or_app. left. apply in_map_iff. exists i. split; [reflexivity|]. apply in_seq. lia.
    - eexists. apply In_dget; [apply decoder_wf|]. unfold decoder_trace. apply in_or_app. right. left. reflexivity.
  Qed.
  Lemma decoder_prov v t s a nd : dget a (decoder_trace v t s) = Some nd -> is_observed nd = String.eqb a "recon".
  Proof.
    intros H. apply dget_In in H. unfold decoder_trace in H. apply in_app_or in H. destruct H as [H|[E|[E|[]]]].
    - apply in_map_iff in H. destruct H as (i & [= <- <-] & _). reflexivity.
    - injection E as <- <-. reflexivity.
    - injection E as <- <-. reflexivity.
  Qed.

  Lemma dec_spec kws s1 po s2 t s dir ct : plain_call kws -> kwarg "ix" VNone kws = apg_ix L (Z.of_nat t) (Z.of_nat s) dir ->
    t <= T_ -> (0 < s \/ t = T_) -> get_cond 3 s1 = Some ct ->
    (forall a, In a (posterior_addresses T_ t s) -> a <> "recon" -> In a (dkeys ct)) -> stored_values t s ct s1 ->
    returns (run (dec L N) (VDict c0) kws) s1 po s2 ->
    out_trace po = decoder_trace (value_at ct) t s /\ store s2 = store s1 /\
    exists d, out_output po = VDict d /\ dget "frames" d = Some (VTensor fr) /\
      forall a, reads_back t s a -> dget a d = Some (VTensor (value_at ct a)).
  Proof.
    intros Hp Hix Ht Hsw Hc Hall Hst H.
    destruct (dec_full N kws s1 (VDict c0) po s2 fr _ _ _ Hp ltac:(unfold item; rewrite Hc0; reflexivity) Hix H)
      as (nodes & zi & ndw & acc & HF & Hzi & Hndw & Htr & Hout & Hacc & Hks & Hs2). rewrite Hfr in *.
    assert (Ezi : z_what zi = digits_at t s).
    { unfold SpecGibbsWeight.digits_at. f_equal. unfold what_index in Hzi. destruct (Nat.eqb_spec t T_) as [->|Hne].
      - rewrite Z.eqb_refl in Hzi. injection Hzi as <-. reflexivity.
      - destruct (Z.eqb_spec (Z.of_nat t) (Z.of_nat T_)); [lia|]. destruct (_ && _); [injection Hzi as <-; reflexivity|discriminate]. }
    assert (Hre : forall a dd nd, In a (posterior_addresses T_ t s) -> a <> "recon" -> node_of (Some ct) a dd (reparam L N) nd -> nd = reused_node dd (value_at ct a)).
    { intros a dd nd Ha Hne (v & p & -> & Hv). destruct (proj1 (In_dkeys _ _) (Hall a Ha Hne)) as [nd' Hnd']. unfold looked_up in Hv. rewrite Hnd' in Hv.
      destruct Hv as [-> ->]. unfold reused_node, value_at. rewrite Hnd'. reflexivity. }
    assert (Hin : forall i, i < T_ -> In (position_at t s i) (posterior_addresses T_ t s)) by (intros i Hi; apply posterior_in; left; eauto).
    assert (Hrb : forall i, i < Nat.min (t + 1) T_ -> dget (z_where (Z.of_nat i) (Z.of_nat s)) (store s1) = Some (VTensor (value_at ct (z_where (Z.of_nat i) (Z.of_nat s))))).
    { intros i Hi. destruct (Hst i Hi) as (nd & Hnd & ->). rewrite (value_at_get _ _ _ Hnd). reflexivity. }
    assert (Hnodes : nodes = map (fun i => (position_at t s i, reused_node (position_prior N (value_at ct) t s i) (value_at ct (position_at t s i)))) (seq 0 T_)).
    { apply (Forall2_map_seq _ _ _ _ _ HF). intros i [k nd] Hi [Ek Hn]. cbn [fst snd] in Ek, Hn. rewrite where_site_name in Ek, Hn.
      change (z_where (Z.of_nat i) (if (Z.of_nat i <=? Z.of_nat t)%Z then Z.of_nat s else (Z.of_nat s - 1)%Z)) with (position_at t s i) in Ek, Hn. subst k. f_equal.
      rewrite Hc, where_site_src in Hn. unfold position_prior. destruct i as [|j].
      - apply Hre; [apply Hin; lia|discriminate|exact Hn].
      - destruct Hn as (loc & Hloc & Hn). rewrite Hrb in Hloc by lia. injection Hloc as <-. apply Hre; [apply Hin; lia|discriminate|exact Hn]. }
    assert (Hw : ndw = reused_node (prior_what L N) (value_at ct (digits_at t s))).
    { apply Hre; [apply posterior_in; auto|discriminate|]. rewrite <- Ezi, <- Hc. exact Hndw. }
    split.
    { rewrite Htr, Ezi, Hnodes, Hw. unfold decoder_trace. rewrite !map_map. reflexivity. }
    split; [exact Hs2|]. eexists. split; [exact Hout|]. split; [rewrite dget_dset, String.eqb_refl; reflexivity|].
    intros a Ha. destruct (reads_back_posterior t s a Ha) as (_ & _ & Hnf). rewrite dget_dset. destruct (String.eqb_spec a "frames"); [contradiction|].
    rewrite dget_dset, Ezi. destruct Ha as [->|(i & Hi & ->)].
    - rewrite String.eqb_refl, Hw. reflexivity.
    - destruct (String.eqb_spec (z_where (Z.of_nat i) (Z.of_nat s)) (digits_at t s)) as [E|_]; [discriminate|]. rewrite Hacc.
      replace (mem _ _) with true; [apply Hrb, Hi|]. symmetry. apply mem_In, in_map_iff. exists i. split; [reflexivity|]. apply in_seq.
      replace (Z.to_nat (Z.of_nat t + 1)) with (t + 1) by lia. lia.
  Qed.

  (** *** the encoder of a step *)
  Lemma before_all s' : before T_ s' = (T_ - 1, S s').
  Proof. unfold Thm_GibbsRun.before. destruct T_; [lia|]. f_equal. lia. Qed.
  Lemma before_reads t s' a : t <= T_ ->
    (if Nat.eqb t T_ then exists i, i < T_ /\ a = z_where (Z.of_nat i) (Z.of_nat (S s')) else a = z_what (Z.of_nat (S s') - 1)) ->
    reads_back (fst (before t s')) (snd (before t s')) a.
  Proof.
    intros Ht. destruct (Nat.eqb_spec t T_) as [->|Hne].
    - intros (i & Hi & ->). rewrite before_all. cbn [fst snd]. right. exists i. split; [lia|reflexivity].
    - intros ->. left. unfold SpecGibbsWeight.digits_at. destruct t as [|t]; cbn [Thm_GibbsRun.before fst snd].
      + rewrite Nat.eqb_refl. f_equal. lia.
      + destruct (Nat.eqb_spec t T_); [lia|reflexivity].
  Qed.
  Lemma fwd_spec kws s1 t s' o1 o2 s2 : plain_call kws -> t <= T_ -> kwarg "ix" VNone kws = apg_ix L (Z.of_nat t) (Z.of_nat (S s')) "forward" ->
    clean s1 -> synced (fst (before t s')) (snd (before t s')) o1 s1 ->
    returns (run (if Nat.eqb t T_ then enc_digit L N else enc_coor L N) (out_output o1) kws) s1 o2 s2 ->
    exists nd, out_trace o2 = [(updated t (S s'), nd)] /\ rv_prov nd = SAMPLED /\ out_lw o2 = tzero L /\
      store s2 = dset (updated t (S s')) (VTensor (rv_value nd)) (store s1) /\
      forall v, v (updated t (S s')) = rv_value nd -> (forall a, reads_back (fst (before t s')) (snd (before t s')) a -> v a = value_at (out_trace o1) a) ->
        forward_logp N T_ fr v t (S s') (rv_logp nd).
  Proof.
    intros Hp Ht Hix Hcl (_ & (d & Ed & (f & Hf & Hfs) & Hcur) & _) H. rewrite Ed in H.
    assert (Hlw : forall m oid sg, returns (run (IProg oid sg m) (VDict d) kws) s1 o2 s2 -> (forall k r, In (k, r) (out_trace o2) -> rv_prov r = SAMPLED) -> out_lw o2 = tzero L).
    { intros m oid sg H' Hs. apply (forward_unconditioned L HL) in H'; [|apply Hcl]. apply (proj2 H'). intros a r Hin E. rewrite (Hs a r Hin) in E. discriminate. }
    unfold Thm_GibbsRun.updated, forward_logp. pose proof (before_reads t s') as Hbr. destruct (Nat.eqb_spec t T_) as [->|Hne].
    - destruct (digit_returns N kws s1 d o2 s2 _ _ "forward" true Hp Hix eq_refl H) as (f' & ws & nd & Hf' & Hws & Hnd & Htr & Hst).
      rewrite Hf in Hf'. injection Hf' as <-. rewrite Hcl in Hnd. destruct Hnd as (v & p & -> & ->).
      eexists. split; [exact Htr|]. split; [reflexivity|]. split; [eapply Hlw; [exact H|]; rewrite Htr; intros k r [[= <- <-]|[]]; reflexivity|]. split; [exact Hst|].
      cbn [rv_value rv_logp]. intros v' E Hv'. exists f. split; [exact Hfs|]. exists ws. split; [|rewrite E; reflexivity].
      assert (Hn : n_frames L N f = T_) by (destruct Hfs as [->| ->]; [exact Hfr|rewrite Hdet; exact Hfr]). rewrite Hn in Hws.
      assert (Hr : forall i, i < T_ -> reads_back (fst (before T_ s')) (snd (before T_ s')) (z_where (Z.of_nat i) (Z.of_nat (S s')))).
      { intros i Hi. apply Hbr; [lia|]. exists i. auto. }
      clear - Hws Hv' Hcur Hr. 
      assert (G : forall l, (forall i, In i l -> i < T_) -> forall ws, Forall2 (fun k x => dget k d = Some (VTensor x)) (map (fun i => z_where (Z.of_nat i) (Z.of_nat (S s'))) l) ws ->
        Forall2 same_tensor (map (fun i => v' (z_where (Z.of_nat i) (Z.of_nat (S s')))) l) ws).
      { induction l as [|i l IH]; intros Hl ws' HF; cbn [map] in HF |- *; inversion HF as [|? x ? ? Hx HF']; subst; constructor.
        - rewrite (Hv' _ (Hr i (Hl i (or_introl eq_refl)))). destruct (Hcur _ (Hr i (Hl i (or_introl eq_refl)))) as (x' & nd & Hx' & Hnd & Hs). assert (Ex : Some (VTensor x) = Some (VTensor x')) by exact (eq_trans (eq_sym Hx) Hx'). injection Ex as <-.
          rewrite (value_at_get _ _ _ Hnd). exact Hs.
        - apply IH; [intros j Hj; apply Hl; right; exact Hj|exact HF']. }
      apply G; [intros i Hi; apply in_seq in Hi; lia|exact Hws].
    - destruct (coor_fwd_returns N kws s1 d o2 s2 _ _ Hp Hix H) as (f' & kr & zs & Hf' & Hkr & Htr & _ & Hst).
      rewrite Hf in Hf'. injection Hf' as <-. destruct (Z.eqb_spec (Z.of_nat (S s')) 0); [lia|]. destruct Hkr as (w & -> & Hw).
      eexists. split; [exact Htr|]. split; [reflexivity|]. split; [eapply Hlw; [exact H|]; rewrite Htr; intros k r [[= <- <-]|[]]; reflexivity|]. split; [exact Hst|].
      cbn [rv_value rv_logp]. intros v' E Hv'. exists f. split; [exact Hfs|]. exists w, zs. split; [|split; [exact E|rewrite E; reflexivity]].
      assert (Hr := Hbr (z_what (Z.of_nat (S s') - 1)) Ht eq_refl). rewrite Hv' by exact Hr. destruct (Hcur _ Hr) as (x & nd & Hx & Hnd & Hs).
      rewrite Hw in Hx. injection Hx as <-. rewrite (value_at_get _ _ _ Hnd). exact Hs.
  Qed.
  Lemma rev_spec kws s1 t s' d ct fo s2 : plain_call kws -> t <= T_ -> kwarg "ix" VNone kws = apg_ix L (Z.of_nat t) (Z.of_nat (S s')) "reverse" ->
    dget "frames" d = Some (VTensor fr) -> (forall a, reads_back t (S s') a -> dget a d = Some (VTensor (value_at ct a))) ->
    get_cond (if Nat.eqb t T_ then 2 else 1) s1 = Some ct -> In (replaced_address T_ t (S s')) (dkeys ct) ->
    returns (run (if Nat.eqb t T_ then enc_digit L N else enc_coor L N) (VDict d) kws) s1 fo s2 ->
    exists nd, out_trace fo = [(replaced_address T_ t (S s'), nd)] /\ rv_prov nd = REUSED /\ rv_value nd = value_at ct (replaced_address T_ t (S s')) /\
      rv_logp nd = reverse_logp N T_ fr (value_at ct) t (S s') /\ store s2 = store s1.
  Proof.
    intros Hp Ht Hix Hf Hd Hc Hin H. apply In_dkeys in Hin. destruct Hin as [nd' Hnd']. unfold replaced_address, reverse_logp in *.
    pose proof (value_at_get _ _ _ Hnd') as Hval.
    destruct (Nat.eqb_spec t T_) as [->|Hne].
    - destruct (digit_returns N kws s1 d fo s2 _ _ "reverse" false Hp Hix eq_refl H) as (f' & ws & nd & Hf' & Hws & Hnd & Htr & Hst).
      rewrite Hf in Hf'. injection Hf' as <-. rewrite Hc in Hnd. destruct Hnd as (v & p & -> & Hv). unfold looked_up in Hv. rewrite Hnd' in Hv. destruct Hv as [-> ->].
      eexists. split; [exact Htr|]. split; [reflexivity|]. split; [symmetry; exact Hval|]. split; [|exact Hst]. cbn [rv_logp]. rewrite Hval.
      replace ws with (map (fun i => value_at ct (z_where (Z.of_nat i) (Z.of_nat (S s')))) (seq 0 T_)); [reflexivity|]. symmetry.
      rewrite Hfr in Hws. apply (Forall2_map_seq _ _ _ _ _ Hws). intros i x Hi Hx. rewrite Hd in Hx by (right; exists i; split; [lia|reflexivity]). congruence.
    - assert (Hs0 : Z.of_nat (S s') <> 0%Z) by lia.
      destruct (coor_rev_returns N kws s1 d fo s2 _ _ ct nd' Hp Hix Hs0 Hc Hnd' H) as (f' & w & Hf' & Hw & Htr & Hst).
      rewrite Hf in Hf'. injection Hf' as <-. eexists. split; [exact Htr|]. split; [reflexivity|]. split; [symmetry; exact Hval|]. split; [|exact Hst]. cbn [rv_logp]. rewrite Hval.
      rewrite Hd in Hw by (left; unfold SpecGibbsWeight.digits_at; destruct (Nat.eqb_spec t T_); [contradiction|reflexivity]). injection Hw as <-. reflexivity.
  Qed.

  (** *** one step *)
  Lemma previous_before t s' : previous_addresses T_ t s' = posterior_addresses T_ (fst (before t s')) (snd (before t s')).
  Proof. destruct t; reflexivity. Qed.
  Lemma previous_in t s' a : t <= T_ -> In a (previous_addresses T_ t s') <->
    (exists i, i < T_ /\ a = z_where (Z.of_nat i) (if Nat.ltb i t then Z.of_nat (S s') else Z.of_nat s')) \/ a = z_what (Z.of_nat s') \/ a = "recon".
  Proof. rewrite previous_before. apply (before_keys N T_ Hpos fr Hfr). Qed.
  Lemma updated_new t s' : ~ In (updated t (S s')) (previous_addresses T_ t s') \/ T_ < t.
  Proof.
    destruct (Nat.le_gt_cases t T_) as [Ht|Ht]; [left|right; exact Ht]. rewrite previous_in by exact Ht. unfold Thm_GibbsRun.updated. destruct (Nat.eqb_spec t T_) as [->|Hne].
    - intros [(i & _ & E)|[E|E]]; [discriminate| |discriminate]. apply z_what_inj in E. lia.
    - intros [(i & Hi & E)|[E|E]]; [|discriminate|discriminate]. apply z_where_inj in E. destruct E as [E1 E2].
      apply Nat2Z.inj in E1. subst i. destruct (Nat.ltb_spec t t); lia.
  Qed.
  Lemma posterior_step t s' a : t <= T_ -> a <> "recon" -> In a (posterior_addresses T_ t (S s')) \/ a = replaced_address T_ t (S s') <->
    a = updated t (S s') \/ In a (previous_addresses T_ t s').
  Proof.
    intros Ht Hne. rewrite previous_in by exact Ht. rewrite posterior_in.
    unfold Thm_GibbsRun.updated, replaced_address, SpecGibbsWeight.digits_at, position_at, current_where. split.
    - intros [[(i & Hi & ->)|[->|E]]| ->]; [| |contradiction|].
      + destruct (Z.leb_spec (Z.of_nat i) (Z.of_nat t)) as [Hle|Hgt].
        * destruct (Nat.eqb_spec t T_) as [E|Hne'].
          -- right. left. exists i. split; [exact Hi|]. destruct (Nat.ltb_spec i t); [reflexivity|lia].
          -- destruct (Nat.eq_dec i t) as [->|Hit]; [left; reflexivity|right]. left. exists i. split; [exact Hi|].
             destruct (Nat.ltb_spec i t); [reflexivity|lia].
        * right. left. exists i. split; [exact Hi|]. destruct (Nat.ltb_spec i t); [lia|]. f_equal. lia.
      + destruct (Nat.eqb_spec t T_) as [->|Hne']; [left; reflexivity|right]. right. left. f_equal. lia.
      + right. destruct (Nat.eqb_spec t T_).
        * right. left. f_equal. lia.
        * left. exists t. split; [lia|]. destruct (Nat.ltb_spec t t); [lia|]. f_equal. lia.
    - intros [->|[(i & Hi & ->)|[->|E]]]; [| | |contradiction].
      + left. destruct (Nat.eqb_spec t T_) as [->|Hne']; [auto|]. left. exists t. split; [lia|]. rewrite Z.leb_refl. reflexivity.
      + destruct (Nat.ltb_spec i t).
        * left. left. exists i. split; [exact Hi|]. destruct (Z.leb_spec (Z.of_nat i) (Z.of_nat t)); [reflexivity|lia].
        * destruct (Nat.eq_dec i t) as [->|Hit].
          -- right. destruct (Nat.eqb_spec t T_); [lia|]. f_equal. lia.
          -- left. left. exists i. split; [exact Hi|]. destruct (Z.leb_spec (Z.of_nat i) (Z.of_nat t)); [lia|]. f_equal. lia.
      + destruct (Nat.eqb_spec t T_); [right|left; right; left]; f_equal; lia.
  Qed.
  Lemma replaced_fresh t s' : ~ In (replaced_address T_ t (S s')) (posterior_addresses T_ t (S s')).
  Proof.
    rewrite posterior_in. unfold replaced_address, SpecGibbsWeight.digits_at, position_at, current_where. destruct (Nat.eqb_spec t T_) as [->|Hne'].
    - intros [(i & _ & E)|[E|E]]; [discriminate| |discriminate]. apply z_what_inj in E. lia.
    - intros [(i & Hi & E)|[E|E]]; [|discriminate|discriminate]. apply z_where_inj in E. destruct E as [E1 E2]. apply Nat2Z.inj in E1. subst i.
      rewrite Z.leb_refl in E2. lia.
  Qed.

  Definition step_weight (t s' : nat) (kws : dict pyval) (o prev : out) : Prop :=
    exists px F, out_px o = Some px /\
    let v := value_at (px_proposal_trace px) in
    let total l := tsum (map (bsum L (kwarg "sample_dims" VNone kws) (kwarg "batch_dim" VNone kws)) l) in
    forward_logp N T_ fr v t (S s') F /\
    out_lw o = detach L (tadd L (out_lw prev) (tsub L
      (total (joint_logp N T_ fr v t (S s') ++ [reverse_logp N T_ fr v t (S s')]))
      (total (F :: map (density_at (out_trace prev)) (previous_addresses T_ t s'))))) /\
    map (density_at (out_trace o)) (posterior_addresses T_ t (S s')) = joint_logp N T_ fr v t (S s') /\
    (forall a, In a (posterior_addresses T_ t (S s')) -> a <> "recon" -> value_at (out_trace o) a = v a) /\
    (forall a, In a (previous_addresses T_ t s') -> value_at (out_trace prev) a = v a) /\
    px_lw px = (if is_tensor L (out_lw prev) then detach L (out_lw prev) else to_tensor L (out_lw prev)) /\
    exists nd, px_proposal_trace px = (updated t (S s'), nd) :: out_trace prev /\ F = rv_logp nd /\
      px_lv px = tsub L
      (total (joint_logp N T_ fr v t (S s') ++ [reverse_logp N T_ fr v t (S s')]))
      (total (F :: map (density_at (out_trace prev)) (previous_addresses T_ t s'))).

  Lemma step_synced q t s' kws s0 o st' : t <= T_ -> plain_call kws -> calm s0 ->
    (forall kws, plain_call kws -> always (run q (VDict c0) kws s0) (good (fst (before t s')) (snd (before t s')))) ->
    (forall kws o1 s1, plain_call kws -> returns (run q (VDict c0) kws) s0 o1 s1 -> synced (fst (before t s')) (snd (before t s')) o1 s1) ->
    returns (run (gibbs_step L N wmean node_sum T_ (S s') t q) (VDict c0) kws) s0 o st' ->
    synced t (S s') o st' /\
    exists kwq prev s1, plain_call kwq /\ kwarg "sample_dims" VNone kwq = kwarg "sample_dims" VNone kws /\ kwarg "batch_dim" VNone kwq = kwarg "batch_dim" VNone kws /\
      returns (run q (VDict c0) kwq) s0 prev s1 /\ step_weight t s' kws o prev.
  Proof.
    intros Ht Hp Hcalm Hg Hs H. unfold gibbs_step in H.
    set (id := 8 + T_ + 4 * (S s' * (T_ + 1) + t)) in H.
    set (enc := if Nat.eqb t T_ then enc_digit L N else enc_coor L N) in H.
    assert (Hoid : oid_of enc = if Nat.eqb t T_ then 2 else 1) by (unfold enc; destruct (Nat.eqb t T_); reflexivity).
    assert (Hwst : wf_st s0) by (eapply calm_wf, Hcalm).
    destruct (propose_law _ HL _ _ _ _ _ _ _ _ _ _ _ (proj1 Hp) Hwst H)
      as (qo & s2 & po & s4 & qt & px & mt & mo & Hq & Hpo & -> & Hwq & Hwp & Hws2 & Hqt & Hpx & Hlv & Hlw & Hplw & Hpt & Htt & _ & Hpart & Hwmt & Hout & Htr & _).
    cbn [in_ix copts] in *. set (kw1 := sub_kwargs _ kws) in *. assert (Hp1 : plain_call kw1) by apply plain_sub, Hp.
    cbn [apply_transf] in Hqt. injection Hqt as <-.
    apply run_compose_returns in Hq; [|apply Hp1]. destruct Hq as (o1 & s1 & o2 & ctr & l & _ & _ & Hq1 & Hq2 & Hdisj & Hcp & _ & Eqo). cbn [in_ix copts] in *.
    set (kwf := sub_kwargs _ kw1) in *. assert (Hpf : plain_call kwf) by apply plain_sub, Hp1.
    assert (Hixf : kwarg "ix" VNone kwf = apg_ix L (Z.of_nat t) (Z.of_nat (S s')) "forward") by (apply sub_ix; reflexivity).
    pose proof (Hg _ Hpf _ Hq1) as Hgood. unfold Thm_GibbsRun.good in Hgood. cbn [fst snd] in Hgood.
    destruct Hgood as (Hwf1 & Hk1 & _ & _ & Hcalm1). pose proof (Hs _ _ _ Hpf Hq1) as Hsync1.
    destruct (fwd_spec kwf s1 t s' o1 o2 s2 Hpf Ht Hixf (proj1 Hcalm1) Hsync1 Hq2) as (nd & Htr2 & Hprov & Hlw2 & Hst2 & Hfwd).
    assert (Hnew : ~ In (updated t (S s')) (dkeys (out_trace o1))).
    { apply Hdisj. rewrite Htr2. left. reflexivity. }
    rewrite <- previous_before in Hk1.
    rewrite copytraces_two_disjoint in Hcp; [|rewrite Htr2; repeat constructor; intros []|exact Hwf1|exact Hdisj]. injection Hcp as <-.
    assert (Htq : out_trace qo = (updated t (S s'), nd) :: out_trace o1) by (rewrite Eqo, subs_trace, Htr2; reflexivity).
    assert (Hlwq : out_lw qo = out_lw o1).
    { rewrite Eqo, subs_lw. cbn [with_loss out_lw]. rewrite Hlw2, (tadd_comm _ HL). apply (tadd_zero _ HL). }
    clear Eqo. set (ct := out_trace qo) in *.
    assert (Hvup : value_at ct (updated t (S s')) = rv_value nd).
    { unfold value_at. rewrite Htq. cbn [dget]. rewrite String.eqb_refl. reflexivity. }
    assert (Hget1 : forall a, In a (previous_addresses T_ t s') -> dget a ct = dget a (out_trace o1)).
    { intros a Ha. rewrite Htq. cbn [dget]. destruct (String.eqb_spec a (updated t (S s'))) as [->|_]; [|reflexivity].
      exfalso. apply Hnew, Hk1, Ha. }
    assert (Hkct : forall a, In a (dkeys ct) <-> a = updated t (S s') \/ In a (previous_addresses T_ t s')).
    { intros a. rewrite Htq. cbn [dkeys map fst In]. fold (dkeys (out_trace o1)). rewrite Hk1. split; intros [E|E]; auto. }
    destruct Hsync1 as (Hst1 & Hout1 & Hrec1).
    assert (Hstored : stored_values t (S s') ct s2).
    { intros i Hi. rewrite Hst2, dget_dset. rewrite Htq. cbn [dget].
      destruct (String.eqb_spec (z_where (Z.of_nat i) (Z.of_nat (S s'))) (updated t (S s'))) as [E|Hne]; [exists nd; split; reflexivity|].
      apply (Hst1 i) || idtac. unfold Thm_GibbsRun.updated in Hne. destruct (Nat.eqb_spec t T_) as [->|Hnt].
      - rewrite before_all in Hst1. apply Hst1. cbn [fst]. lia.
      - assert (Hit : i <> t) by congruence. destruct t as [|t']; [lia|]. apply Hst1. cbn [Thm_GibbsRun.before fst]. lia. }
    (* the target *)
    assert (Hidn : ~ In (id + 1) (substituted (IExtend (id + 1) (dec L N) enc (copts L default_loss (apg_ix L (Z.of_nat t) (Z.of_nat (S s')) "reverse") false)))).
    { assert (Hse : substituted enc = []) by (unfold enc; destruct (Nat.eqb t T_); reflexivity).
      cbn [substituted dec oid_of]. rewrite Hse, Hoid. cbn [app]. cbn. unfold id. destruct (Nat.eqb t T_); intros Hx; intuition lia. }
    cbn [oid_of] in *.
    assert (Hwcs : wf_st (set_cond (id + 1) (Some ct) s2)) by (apply wf_set_cond; [exact Hws2|intros tr [= <-]; exact Hwq]).
    destruct (extend_law _ HL _ _ _ _ _ _ _ _ _ (proj1 Hp1) Hwcs Hidn Hpo) as (dpo & s3 & fo & s4' & Hdec & Henc & Es4 & Hlwp & _ & _ & Hmarg & _ & _ & Htp & Hwd & Hwfo).
    cbn [in_ix copts] in *. rewrite get_set_same in *. rewrite Hoid in Hdec, Es4. cbn [oid_of dec] in Hdec, Es4.
    set (kwr := sub_kwargs (apg_ix L (Z.of_nat t) (Z.of_nat (S s')) "reverse") kw1) in *. assert (Hpr : plain_call kwr) by apply plain_sub, Hp1.
    assert (Hixr : kwarg "ix" VNone kwr = apg_ix L (Z.of_nat t) (Z.of_nat (S s')) "reverse") by (apply sub_ix; reflexivity).
    set (eid := if Nat.eqb t T_ then 2 else 1) in *.
    assert (Heid : eid <> 3 /\ eid < 3) by (unfold eid; destruct (Nat.eqb t T_); lia).
    set (sd := set_cond eid (Some ct) (set_cond 3 (Some ct) (set_cond (id + 1) (Some ct) s2))) in *.
    assert (Hc3 : get_cond 3 sd = Some ct) by (unfold sd; rewrite get_set_other by (intros E; apply (proj1 Heid); symmetry; exact E); apply get_set_same).
    assert (Hsup : forall a, In a (posterior_addresses T_ t (S s')) -> a <> "recon" -> In a (dkeys ct)).
    { intros a Ha Hne. apply Hkct, posterior_step; auto. }
    destruct (dec_spec kwr sd dpo s3 t (S s') "reverse" ct Hpr Hixr Ht ltac:(left; lia) Hc3 Hsup Hstored Hdec) as (Htd & Hst3 & d & Ed & Hfd & Hrd).
    assert (Hce : get_cond eid s3 = Some ct).
    { pose proof Hdec as Hd'. apply run_scoped in Hd'. destruct Hd' as (E & _ & _). rewrite E by (cbn; tauto). apply get_set_same. }
    assert (Hrep : In (replaced_address T_ t (S s')) (dkeys ct)).
    { apply Hkct, posterior_step; auto. unfold replaced_address. destruct (Nat.eqb t T_); discriminate. }
    rewrite Ed in Henc.
    destruct (rev_spec kwr s3 t s' d ct fo s4' Hpr Ht Hixr Hfd Hrd Hce Hrep Henc) as (ndf & Htf & Hprf & Hvf & Hlf & Hst4).
    assert (Hst' : store (set_cond (id + 1) None s4) = store s2) by (rewrite Es4; cbn [set_cond store]; rewrite Hst4, Hst3; reflexivity).
    assert (Hobsct : forall a n, dget a ct = Some n -> is_observed n = String.eqb a "recon").
    { intros a n Hn. rewrite Htq in Hn. cbn [dget] in Hn. destruct (String.eqb_spec a (updated t (S s'))) as [->|_]; [|exact (Hrec1 _ _ Hn)].
      injection Hn as <-. unfold is_observed. rewrite Hprov. unfold Thm_GibbsRun.updated. destruct (Nat.eqb t T_); reflexivity. }
    assert (Hwsd : wf_st sd) by (unfold sd; do 2 (apply wf_set_cond; [|intros tr [= <-]; exact Hwq]); exact Hwcs).
    (* what is left *)
    assert (Hmt : out_trace o = decoder_trace (value_at ct) t (S s') /\ mo = out_output dpo).
    { rewrite Htr. destruct Hpart as (keys & Hmk & ->). rewrite Hmarg in Hmk. injection Hmk as <- <-. split; [|reflexivity].
      rewrite Htp, <- Htd. apply filter_keys_app. rewrite Htf. intros k Hk [<-|[]]. rewrite Htd, decoder_keys in Hk. exact (replaced_fresh t s' Hk). }
    destruct Hmt as [Hmt ->].
    assert (Hval : forall a, In a (posterior_addresses T_ t (S s')) -> a <> "recon" -> exists dd, dget a (out_trace o) = Some (reused_node dd (value_at ct a))).
    { intros a Ha Hne. rewrite Hmt. apply decoder_get; assumption. }
    split.
    { split; [|split].
      - intros i Hi. rewrite Hst'. destruct (Hval (z_where (Z.of_nat i) (Z.of_nat (S s')))) as [dd Hdd]; [apply reads_back_posterior; right; exists i; auto|discriminate|].
        eexists. split; [exact Hdd|]. cbn [reused_node rv_value]. destruct (Hstored i Hi) as (n' & Hn' & ->). rewrite (value_at_get _ _ _ Hn'). reflexivity.
      - rewrite Hout, Ed. eexists. split; [reflexivity|]. split.
        + exists (detach L fr). split; [rewrite (dget_detach _ _ _ Hfd); reflexivity|right; reflexivity].
        + intros a Ha. destruct (reads_back_posterior _ _ _ Ha) as (Ha1 & Ha2 & _). destruct (Hval a Ha1 Ha2) as [dd Hdd].
          eexists. eexists. split; [rewrite (dget_detach _ _ _ (Hrd a Ha)); reflexivity|]. split; [exact Hdd|]. right. reflexivity.
      - intros a n Hn. rewrite Hmt in Hn. eapply decoder_prov, Hn. }
    exists kwf, o1, s1. split; [exact Hpf|]. split; [reflexivity|]. split; [reflexivity|]. split; [exact Hq1|].
    exists px, (rv_logp nd). split; [exact Hpx|]. cbn zeta. rewrite Hpt. fold ct.
    split.
    { apply Hfwd; [exact Hvup|]. intros a Ha. unfold value_at. rewrite Hget1; [reflexivity|]. rewrite previous_before. apply reads_back_posterior, Ha. }
    match goal with |- (out_lw o = detach L (tadd L _ ?x)) /\ _ => assert (Hinc : px_lv px = x) end.
    { rewrite Hlv. f_equal.
      + rewrite Hlwp. rewrite map_app, (tsum_app _ HL). f_equal.
        * rewrite <- (decoder_logps (value_at ct)), <- logp_sum_all, <- Htd.
          rewrite (forward_full_substitution _ HL _ _ _ _ _ _ _ _ Hwsd Hdec); [reflexivity|].
          intros a Ha. rewrite Hc3. cbn [latent_in_opt]. unfold latent_in in Ha |- *. destruct (dget a (out_trace dpo)) as [n|] eqn:En; [|discriminate].
          rewrite Htd in En. assert (Hin : In a (posterior_addresses T_ t (S s'))) by (rewrite <- (decoder_keys (value_at ct)); eapply dget_In_keys, En).
          apply decoder_prov in En. rewrite En in Ha. assert (Hne : a <> "recon") by (intros ->; discriminate).
          destruct (proj1 (In_dkeys _ _) (Hsup a Hin Hne)) as [n' Hn']. rewrite Hn', (Hobsct _ _ Hn'). exact Ha.
        * rewrite logp_sum_all, Htf. cbn [map snd]. rewrite Hlf. reflexivity.
      + transitivity (logp_sum (kwarg "sample_dims" VNone kws) (kwarg "batch_dim" VNone kws) (fun _ _ => true) ct).
        * unfold logp_sum. do 2 f_equal. apply filter_ext_in. intros [k n] Hin. cbn [fst snd]. apply In_dget in Hin; [|exact Hwq].
          unfold charged. rewrite Hin, (Hobsct _ _ Hin). destruct (String.eqb_spec k "recon") as [_|Hne]; [reflexivity|]. cbn [orb].
          assert (Hk : In k (posterior_addresses T_ t (S s')) \/ k = replaced_address T_ t (S s')).
          { apply posterior_step; [exact Ht|exact Hne|]. apply Hkct. eapply dget_In_keys, Hin. }
          unfold latent_in. rewrite Htp, dget_app, Htd. destruct Hk as [Hk| ->].
          -- destruct (decoder_get (value_at ct) t (S s') k Hk Hne) as [dd ->]. reflexivity.
          -- rewrite (proj2 (dget_None _ _)) by (rewrite decoder_keys; apply replaced_fresh). rewrite Htf. cbn [dget]. rewrite String.eqb_refl.
             unfold is_observed. rewrite Hprf. reflexivity.
        * rewrite logp_sum_all, Htq. cbn [map snd]. rewrite !tsum_cons. f_equal.
          rewrite <- (logp_sum_addresses HL _ _ (out_trace o1)); [symmetry; apply logp_sum_all|exact Hwf1|rewrite previous_before; apply posterior_NoDup|exact Hk1]. }
    split; [rewrite Hlw, Hlwq, Hinc; reflexivity|].
    split; [|split; [|split]].
    - rewrite Hmt, <- decoder_logps, <- (decoder_keys (value_at ct)). apply densities_dkeys, decoder_wf.
    - intros a Ha Hne. destruct (Hval a Ha Hne) as [dd Hdd]. rewrite (value_at_get _ _ _ Hdd). reflexivity.
    - intros a Ha. unfold value_at. rewrite Hget1 by exact Ha. reflexivity.
    - split; [rewrite Hplw, Hlwq; reflexivity|]. exists nd. split; [exact Htq|]. split; [reflexivity|exact Hinc].
  Qed.

  (** *** importance sampling *)
  Definition coor_node (i : nat) (zs : list (T L)) : rv L :=
    let d := coor_all L N fr None (Z.of_nat i) zs in mkRV (Proper d) (coor_cat L N zs) (logp L d (coor_cat L N zs)) SAMPLED (reparam L N) true.
  Lemma composes_spec n : n <= T_ -> forall kws s0 o s', plain_call kws -> calm s0 ->
    returns (run (is_composes L N n) (VDict c0) kws) s0 o s' ->
    calm s' /\ out_lw o = tzero L /\ exists zs d, out_output o = VDict d /\ dget "frames" d = Some (VTensor fr) /\
      wf_dict (out_trace o) /\ (forall a, In a (dkeys (out_trace o)) <-> exists i, i < n /\ a = z_where (Z.of_nat i) 0) /\
      forall i, i < n -> dget (z_where (Z.of_nat i) 0) (out_trace o) = Some (coor_node i (zs i)) /\
        dget (z_where (Z.of_nat i) 0) d = Some (VTensor (coor_cat L N (zs i))) /\
        dget (z_where (Z.of_nat i) 0) (store s') = Some (VTensor (coor_cat L N (zs i))).
  Proof.
    induction n as [|n IH]; intros Hn kws s0 o s' Hp Hcalm H; cbn [is_composes] in H.
    - unfold noop in H. pose proof H as Hx. apply prog_exec in Hx; [|exact Hp|reflexivity]. cbn [noop_model exec] in Hx. apply outcome_leaf in Hx.
      injection Hx as E1 E2 E3.
      assert (Hlw : out_lw o = tzero L).
      { apply (forward_unconditioned L HL) in H; [|apply Hcalm]. apply (proj2 H). rewrite <- E2. intros a r []. }
      split; [rewrite <- E3; exact Hcalm|]. split; [exact Hlw|]. exists (fun _ => []), c0. rewrite <- E1, <- E2.
      split; [reflexivity|]. split; [exact Hc0|]. split; [constructor|]. split; [intros a; split; [intros []|intros (i & Hi & _); lia]|]. intros i Hi. lia.
    - apply run_compose_returns in H; [|apply Hp]. destruct H as (o1 & s1 & o2 & ctr & l & _ & _ & H1 & H2 & Hdisj & Hcp & _ & Eo). cbn [in_ix copts] in *.
      set (kw1 := sub_kwargs _ kws) in *. assert (Hp1 : plain_call kw1) by apply plain_sub, Hp.
      destruct (IH ltac:(lia) kw1 s0 o1 s1 Hp1 Hcalm H1) as (Hcalm1 & Hlw1 & zs & d & Ed & Hf & Hwf1 & Hk1 & Hi1). rewrite Ed in H2.
      assert (Hix : kwarg "ix" VNone kw1 = apg_ix L (Z.of_nat n) 0 "forward") by (apply sub_ix; reflexivity).
      destruct (coor_fwd_returns N kw1 s1 d o2 s' _ _ Hp1 Hix H2) as (f & kr & z & Hf' & Hkr & Htr2 & Hout2 & Hst2).
      rewrite Hf in Hf'. injection Hf' as <-. cbn [Z.eqb] in Hkr, Hout2. subst kr.
      assert (Hlw2 : out_lw o2 = tzero L).
      { pose proof H2 as H2'. apply (forward_unconditioned L HL) in H2'; [|apply Hcalm1]. apply (proj2 H2'). rewrite Htr2. intros a r [[= <- <-]|[]]. discriminate. }
      assert (Hnew : ~ In (z_where (Z.of_nat n) 0) (dkeys (out_trace o1))) by (apply Hdisj; rewrite Htr2; left; reflexivity).
      rewrite copytraces_two_disjoint in Hcp; [|rewrite Htr2; repeat constructor; intros []|exact Hwf1|exact Hdisj]. injection Hcp as <-.
      assert (Htr : out_trace o = (z_where (Z.of_nat n) 0, coor_node n z) :: out_trace o1) by (rewrite Eo, subs_trace, Htr2; reflexivity).
      assert (Hlw : out_lw o = tzero L) by (rewrite Eo, subs_lw; cbn [with_loss out_lw]; rewrite Hlw1, Hlw2; apply (tadd_zero _ HL)).
      assert (Hou : out_output o = VDict (dset (z_where (Z.of_nat n) 0) (VTensor (coor_cat L N z)) d)) by (rewrite Eo, subs_output; exact Hout2).
      split.
      { apply run_scoped in H2. destruct H2 as (_ & E1 & E2). destruct Hcalm1 as [C1 C2]. split; [intros i; apply E1, C1|congruence]. }
      split; [exact Hlw|]. exists (fun i => if Nat.eqb i n then z else zs i). eexists. split; [exact Hou|].
      split; [rewrite dget_dset; exact Hf|].
      split; [rewrite Htr; apply (wf_app L [(_, _)]); [repeat constructor; intros []|exact Hwf1|intros k [<-|[]]; exact Hnew]|].
      split.
      { intros a. rewrite Htr. cbn [dkeys map fst In]. fold (dkeys (out_trace o1)). rewrite Hk1. split.
        - intros [<-|(i & Hi & ->)]; [exists n|exists i]; split; try lia; reflexivity.
        - intros (i & Hi & ->). destruct (Nat.eq_dec i n) as [->|Hin]; [left; reflexivity|right; exists i; split; [lia|reflexivity]]. }
      intros i Hi. rewrite Htr, Hst2, !dget_dset. cbn [dget].
      destruct (String.eqb_spec (z_where (Z.of_nat i) 0) (z_where (Z.of_nat n) 0)) as [E|Hne].
      + apply z_where_inj in E. destruct E as [E _]. apply Nat2Z.inj in E. subst i. rewrite Nat.eqb_refl. repeat split.
      + destruct (Nat.eqb_spec i n) as [->|Hin]; [congruence|]. apply Hi1. lia.
  Qed.

  Definition initial_weight (kws : dict pyval) (o : out) : Prop :=
    exists px l, out_px o = Some px /\
    let v := value_at (px_proposal_trace px) in
    let total l := tsum (map (bsum L (kwarg "sample_dims" VNone kws) (kwarg "batch_dim" VNone kws)) l) in
    initial_logp N T_ fr v l /\
    out_lw o = detach L (tsub L (total (joint_logp N T_ fr v T_ 0)) (total l)) /\
    map (density_at (out_trace o)) (posterior_addresses T_ T_ 0) = joint_logp N T_ fr v T_ 0 /\
    (forall a, In a (posterior_addresses T_ T_ 0) -> a <> "recon" -> value_at (out_trace o) a = v a) /\
    l = map (density_at (px_proposal_trace px)) (map (fun i => z_where (Z.of_nat i) 0) (seq 0 T_) ++ [z_what 0]).

  Lemma initial_synced kws s0 o st' : plain_call kws -> calm s0 ->
    returns (run (initial_is L N wmean T_) (VDict c0) kws) s0 o st' -> synced T_ 0 o st' /\ initial_weight kws o.
  Proof.
    intros Hp Hcalm H. unfold initial_is in H. assert (Hwst : wf_st s0) by (eapply calm_wf, Hcalm).
    destruct (propose_law _ HL _ _ _ _ _ _ _ _ _ _ _ (proj1 Hp) Hwst H)
      as (qo & s2 & po & s4 & qt & px & mt & mo & Hq & Hpo & -> & Hwq & Hwp & Hws2 & Hqt & Hpx & Hlv & Hlw & _ & Hpt & Htt & _ & Hpart & Hwmt & Hout & Htr & _).
    cbn [in_ix copts] in *. set (kw1 := sub_kwargs _ kws) in *. assert (Hp1 : plain_call kw1) by apply plain_sub, Hp.
    cbn [apply_transf] in Hqt. injection Hqt as <-.
    apply run_compose_returns in Hq; [|apply Hp1]. destruct Hq as (o1 & s1 & o2 & ctr & l & _ & _ & Hq1 & Hq2 & Hdisj & Hcp & _ & Eqo). cbn [in_ix copts] in *.
    set (kwf := sub_kwargs (apg_ix L (Z.of_nat T_) 0 "forward") kw1) in *. assert (Hpf : plain_call kwf) by apply plain_sub, Hp1.
    assert (Hixf : kwarg "ix" VNone kwf = apg_ix L (Z.of_nat T_) 0 "forward") by (apply sub_ix; reflexivity).
    destruct (composes_spec T_ (le_n _) kwf s0 o1 s1 Hpf Hcalm Hq1) as (Hcalm1 & Hlw1 & zs & d & Ed & Hf & Hwf1 & Hk1 & Hi1). rewrite Ed in Hq2.
    destruct (digit_returns N kwf s1 d o2 s2 _ _ "forward" true Hpf Hixf eq_refl Hq2) as (f & ws & nd & Hf' & Hws & Hnd & Htr2 & Hst2).
    rewrite Hf in Hf'. injection Hf' as <-. rewrite (proj1 Hcalm1) in Hnd. destruct Hnd as (z & p & -> & ->). set (nd := mkRV _ z _ _ _ _) in *. rewrite Hfr in Hws.
    assert (Hlw2 : out_lw o2 = tzero L).
    { pose proof Hq2 as H2'. apply (forward_unconditioned L HL) in H2'; [|apply Hcalm1]. apply (proj2 H2'). rewrite Htr2. intros a r [[= <- <-]|[]]. discriminate. }
    assert (Hnew : ~ In (z_what 0) (dkeys (out_trace o1))) by (apply Hdisj; rewrite Htr2; left; reflexivity).
    rewrite copytraces_two_disjoint in Hcp; [|rewrite Htr2; repeat constructor; intros []|exact Hwf1|exact Hdisj]. injection Hcp as <-.
    assert (Htq : out_trace qo = (z_what 0, nd) :: out_trace o1) by (rewrite Eqo, subs_trace, Htr2; reflexivity).
    assert (Hlwq : out_lw qo = tzero L) by (rewrite Eqo, subs_lw; cbn [with_loss out_lw]; rewrite Hlw1, Hlw2; apply (tadd_zero _ HL)).
    clear Eqo. set (ct := out_trace qo) in *.
    assert (Hgetw : forall i, i < T_ -> dget (z_where (Z.of_nat i) 0) ct = Some (coor_node i (zs i))).
    { intros i Hi. rewrite Htq. cbn [dget]. destruct (String.eqb_spec (z_where (Z.of_nat i) 0) (z_what 0)) as [E|_]; [discriminate|]. apply Hi1, Hi. }
    assert (Hgetd : dget (z_what 0) ct = Some nd) by (rewrite Htq; cbn [dget]; rewrite String.eqb_refl; reflexivity).
    assert (Hkct : forall a, In a (dkeys ct) <-> In a (posterior_addresses T_ T_ 0) /\ a <> "recon").
    { intros a. rewrite Htq. cbn [dkeys map fst In]. fold (dkeys (out_trace o1)). rewrite Hk1, posterior_in.
      unfold SpecGibbsWeight.digits_at. rewrite Nat.eqb_refl. unfold position_at, current_where. split.
      - intros [<-|(i & Hi & ->)]; [split; [auto|discriminate]|]. split; [|discriminate]. left. exists i. split; [exact Hi|].
        destruct (Z.leb_spec (Z.of_nat i) (Z.of_nat T_)); [reflexivity|lia].
      - intros [[(i & Hi & ->)|[->|E]] Hne]; [right; exists i; split; [exact Hi|]; destruct (Z.leb_spec (Z.of_nat i) (Z.of_nat T_)); [reflexivity|lia]|left; reflexivity|contradiction]. }
    assert (Hpr : forall a n, dget a ct = Some n -> is_observed n = false).
    { intros a n Ha. assert (Hin : In a (dkeys ct)) by (eapply dget_In_keys, Ha). rewrite Htq in Hin. cbn [dkeys map fst In] in Hin.
      destruct Hin as [<-|Hin]; [rewrite Hgetd in Ha; injection Ha as <-; reflexivity|].
      apply Hk1 in Hin. destruct Hin as (i & Hi & ->). rewrite (Hgetw i Hi) in Ha. injection Ha as <-. reflexivity. }
    assert (Hstored : stored_values T_ 0 ct s2).
    { intros i Hi. assert (Hi' : i < T_) by lia. exists (coor_node i (zs i)). split; [exact (Hgetw i Hi')|].
      rewrite Hst2, dget_dset. destruct (String.eqb_spec (z_where (Z.of_nat i) (Z.of_nat 0)) (z_what 0)) as [E|_]; [discriminate|]. apply (Hi1 i Hi'). }
    cbn [oid_of dec] in Hpo. set (sd := set_cond 3 (Some ct) s2) in *.
    assert (Hixp : kwarg "ix" VNone kw1 = apg_ix L (Z.of_nat T_) (Z.of_nat 0) "forward") by (apply sub_ix; reflexivity).
    assert (Hc3 : get_cond 3 sd = Some ct) by apply get_set_same.
    destruct (dec_spec kw1 sd po s4 T_ 0 "forward" ct Hp1 Hixp (le_n _) (or_intror eq_refl) Hc3) as (Htd & Hst3 & dd & Edd & Hfd & Hrd);
      [intros a Ha Hne; apply Hkct; auto|exact Hstored|exact Hpo|].
    assert (Hwsd : wf_st sd) by (apply wf_set_cond; [exact Hws2|intros tr [= <-]; exact Hwq]).
    cbn [target_part dec] in Hpart. destruct Hpart as [-> ->].
    assert (Hval : forall a, In a (posterior_addresses T_ T_ 0) -> a <> "recon" -> exists dd, dget a (out_trace o) = Some (reused_node dd (value_at ct a))).
    { intros a Ha Hne. rewrite Htr, Htd. apply decoder_get; assumption. }
    split.
    { split; [|split].
      - intros i Hi. cbn [oid_of dec set_cond store]. rewrite Hst3. cbn [sd set_cond store].
        destruct (Hval (z_where (Z.of_nat i) (Z.of_nat 0))) as [d' Hd']; [apply reads_back_posterior; right; exists i; auto|discriminate|].
        eexists. split; [exact Hd'|]. cbn [reused_node rv_value]. destruct (Hstored i Hi) as (n' & Hn' & ->). rewrite (value_at_get _ _ _ Hn'). reflexivity.
      - rewrite Hout, Edd. eexists. split; [reflexivity|]. split.
        + exists (detach L fr). split; [rewrite (dget_detach _ _ _ Hfd); reflexivity|right; reflexivity].
        + intros a Ha. destruct (reads_back_posterior _ _ _ Ha) as (Ha1 & Ha2 & _). destruct (Hval a Ha1 Ha2) as [d' Hd'].
          eexists. eexists. split; [rewrite (dget_detach _ _ _ (Hrd a Ha)); reflexivity|]. split; [exact Hd'|]. right. reflexivity.
      - intros a n Hn. rewrite Htr, Htd in Hn. eapply decoder_prov, Hn. }
    exists px. eexists. split; [exact Hpx|]. cbn zeta. rewrite Hpt. fold ct. split.
    { exists zs. split; [intros i Hi; rewrite (value_at_get _ _ _ (Hgetw i Hi)); reflexivity|reflexivity]. }
    split; [|split].
    - rewrite Hlw, Hlwq, Hlv, (tadd_zero _ HL). f_equal. f_equal.
      + rewrite <- (decoder_logps (value_at ct)), <- logp_sum_all, <- Htd.
        rewrite (forward_full_substitution _ HL _ _ _ _ _ _ _ _ Hwsd Hpo); [reflexivity|].
        intros a Ha. rewrite Hc3. cbn [latent_in_opt]. unfold latent_in in Ha |- *. destruct (dget a (out_trace po)) as [n|] eqn:En; [|discriminate].
        rewrite Htd in En. assert (Hin : In a (posterior_addresses T_ T_ 0)) by (rewrite <- (decoder_keys (value_at ct)); eapply dget_In_keys, En).
        apply decoder_prov in En. rewrite En in Ha. assert (Hne : a <> "recon") by (intros ->; discriminate).
        assert (Hin' : In a (dkeys ct)) by (apply Hkct; auto). apply In_dkeys in Hin'. destruct Hin' as [n' Hn']. rewrite Hn', (Hpr _ _ Hn'). reflexivity.
      + transitivity (logp_sum (kwarg "sample_dims" VNone kws) (kwarg "batch_dim" VNone kws) (fun _ _ => true) ct).
        * unfold logp_sum. do 2 f_equal. apply filter_ext_in. intros [k n] Hin. cbn [fst snd]. apply In_dget in Hin; [|exact Hwq].
          unfold charged. rewrite Hin, (Hpr _ _ Hin). cbn [orb].
          assert (Hk : In k (dkeys ct)) by (eapply dget_In_keys, Hin). apply Hkct in Hk. destruct Hk as [Hk Hne].
          unfold latent_in. rewrite Htd. destruct (decoder_get (value_at ct) T_ 0 k Hk Hne) as [d' ->]. reflexivity.
        * assert (Hnd : NoDup (map (fun i => z_where (Z.of_nat i) 0) (seq 0 T_))).
          { apply FinFun.Injective_map_NoDup; [|apply seq_NoDup]. intros i j E. apply z_where_inj in E. apply Nat2Z.inj, E. }
          rewrite logp_sum_all, Htq. cbn [map snd]. rewrite tsum_cons, map_app, (tsum_app _ HL), (tadd_comm _ HL). f_equal.
          -- rewrite <- logp_sum_all, (logp_sum_addresses HL _ _ (out_trace o1) (map (fun i => z_where (Z.of_nat i) 0) (seq 0 T_)));
               [|exact Hwf1|exact Hnd|intros a; rewrite Hk1, in_map_iff; split; [intros (i & Hi & ->); exists i; split; [reflexivity|apply in_seq; lia]|intros (i & <- & Hi); apply in_seq in Hi; exists i; split; [lia|reflexivity]]].
             rewrite !map_map. f_equal. apply map_ext_in. intros i Hi. apply in_seq in Hi. f_equal. unfold density_at.
             rewrite (proj1 (Hi1 i ltac:(lia))). rewrite <- Htq, (value_at_get _ _ _ (Hgetw i ltac:(lia))). reflexivity.
          -- rewrite <- Htq. cbn [map]. rewrite tsum_cons. cbn [tsum fold_right]. rewrite (tadd_comm _ HL), (tadd_zero _ HL). f_equal. rewrite (value_at_get _ _ _ Hgetd). cbn [nd rv_logp rv_value].
             do 2 f_equal. 
             apply (Forall2_map_seq _ _ _ _ _ Hws). intros i x Hi Hx. rewrite (proj1 (proj2 (Hi1 i Hi))) in Hx.
             rewrite (value_at_get _ _ _ (Hgetw i Hi)). cbn [coor_node rv_value]. congruence.
    - rewrite Htr, Htd, <- decoder_logps, <- (decoder_keys (value_at ct)). apply densities_dkeys, decoder_wf.
    - split; [intros a Ha Hne; destruct (Hval a Ha Hne) as [d' Hd']; rewrite (value_at_get _ _ _ Hd'); reflexivity|].
      rewrite map_app, map_map. f_equal.
      + apply map_ext_in. intros i Hi. apply in_seq in Hi. unfold density_at. rewrite (value_at_get _ _ _ (Hgetw i ltac:(lia))), (Hgetw i ltac:(lia)). reflexivity.
      + cbn [map]. f_equal. unfold density_at. rewrite (value_at_get _ _ _ Hgetd), Hgetd. cbn [nd rv_logp rv_value]. do 2 f_equal.
        symmetry. apply (Forall2_map_seq _ _ _ _ _ Hws). intros i x Hi Hx. rewrite (proj1 (proj2 (Hi1 i Hi))) in Hx.
        rewrite (value_at_get _ _ _ (Hgetw i Hi)). cbn [coor_node rv_value]. congruence.
  Qed.

  (** *** all the sweeps *)
  Notation gsteps := (sweep_steps L N wmean node_sum rs T_).
  Notation gsweeps := (sweeps L N wmean node_sum rs T_).
  Notation gstep := (gibbs_step L N wmean node_sum T_).
  Lemma steps_ready S_ s n kws s0 : s < S_ -> n <= T_ -> plain_call kws -> calm s0 ->
    always (run (gsteps (S s) n (gsweeps S_ s)) (VDict c0) kws s0) (good (fst (before n s)) (snd (before n s))).
  Proof.
    intros Hs Hn Hp Hc. apply (steps_good HL HT Hlj N same wmean node_sum rs Hrs Hdet T_ Hpos c0 fr Hc0 Hfr s); [|exact Hn|exact Hp|exact Hc].
    intros kws2 st2 Hp2 Hc2. pose proof (sweeps_good HL HT Hlj N same wmean node_sum rs Hrs Hdet T_ Hpos c0 fr Hc0 Hfr S_ s ltac:(lia) kws2 st2 Hp2 Hc2) as Hg.
    destruct (Nat.eqb_spec s S_); [lia|exact Hg].
  Qed.
  Lemma step_ready S_ s t kws s0 : s < S_ -> t <= T_ -> plain_call kws -> calm s0 ->
    always (run (gstep (S s) t (gsteps (S s) t (gsweeps S_ s))) (VDict c0) kws s0) (good t (S s)).
  Proof.
    intros Hs Ht Hp Hc. eapply always_impl; [|apply good_of_stepped].
    apply (step_good HL HT Hlj N same wmean node_sum rs Hdet T_ Hpos c0 fr Hc0 Hfr); [exact Ht|exact Hp|exact Hc|].
    intros kws' Hp'. apply steps_ready; assumption.
  Qed.
  Lemma steps_synced S_ s : s < S_ ->
    (forall kws s0 o s', plain_call kws -> calm s0 -> returns (run (gsweeps S_ s) (VDict c0) kws) s0 o s' -> synced T_ s o s') ->
    forall n, n <= T_ -> forall kws s0 o s', plain_call kws -> calm s0 ->
    returns (run (gsteps (S s) n (gsweeps S_ s)) (VDict c0) kws) s0 o s' -> synced (fst (before n s)) (snd (before n s)) o s'.
  Proof.
    intros Hs Hq. induction n as [|n IH]; intros Hn kws s0 o s' Hp Hc H; [exact (Hq _ _ _ _ Hp Hc H)|].
    cbn [sweep_steps] in H. cbn [Thm_GibbsRun.before fst snd]. eapply resample_synced; [exact Hp|exact Hc| | |exact H].
    - intros kws' Hp'. apply step_ready; [exact Hs|lia|exact Hp'|exact Hc].
    - intros kws' o1 s1 Hp' H1. eapply step_synced; [| exact Hp'|exact Hc| | |exact H1]; [lia| |].
      + intros kws2 Hp2. apply steps_ready; [exact Hs|lia|exact Hp2|exact Hc].
      + intros kws2 o2 s2 Hp2 H2. eapply IH; [lia|exact Hp2|exact Hc|exact H2].
  Qed.
  Lemma sweeps_synced S_ : forall n, n <= S_ -> forall kws s0 o s', plain_call kws -> calm s0 ->
    returns (run (gsweeps S_ n) (VDict c0) kws) s0 o s' -> synced T_ n o s'.
  Proof.
    induction n as [|n IH]; intros Hn kws s0 o s' Hp Hc H; cbn [sweeps] in H.
    - destruct (Nat.ltb 0 S_); [|exact (proj1 (initial_synced _ _ _ _ Hp Hc H))].
      eapply resample_synced; [exact Hp|exact Hc| | |exact H].
      + intros kws' Hp'. eapply always_impl; [apply (initial_good HL HT Hlj N same wmean node_sum Hdet T_ Hpos c0 fr Hc0 Hfr kws' s0 Hp' Hc)|].
        intros [r s1] (o1 & E & H1 & _). unfold Thm_GibbsRun.good. rewrite E. exact H1.
      + intros kws' o1 s1 Hp' H1. exact (proj1 (initial_synced _ _ _ _ Hp' Hc H1)).
    - assert (Hstep : forall kws o s', plain_call kws -> returns (run (gstep (S n) T_ (gsteps (S n) T_ (gsweeps S_ n))) (VDict c0) kws) s0 o s' -> synced T_ (S n) o s').
      { intros kws' o1 s1 Hp' H1. eapply step_synced; [|exact Hp'|exact Hc| | |exact H1]; [lia| |].
        - intros kws2 Hp2. apply steps_ready; [lia|lia|exact Hp2|exact Hc].
        - intros kws2 o2 s2 Hp2 H2. eapply (steps_synced S_ n); [lia| |exact (le_n _)|exact Hp2|exact Hc|exact H2]. intros. eapply IH; [lia|eassumption..]. }
      destruct (Nat.eqb (S n) S_); [exact (Hstep _ _ _ Hp H)|].
      eapply resample_synced; [exact Hp|exact Hc| |intros kws' o1 s1 Hp' H1; exact (Hstep _ _ _ Hp' H1)|exact H].
      intros kws' Hp'. apply step_ready; [lia|lia|exact Hp'|exact Hc].
  Qed.
  Lemma step_weighed S_ s t kws s0 o st' : s < S_ -> t <= T_ -> plain_call kws -> calm s0 ->
    returns (run (gstep (S s) t (gsteps (S s) t (gsweeps S_ s))) (VDict c0) kws) s0 o st' ->
    synced t (S s) o st' /\
    exists kwq prev s1, plain_call kwq /\ kwarg "sample_dims" VNone kwq = kwarg "sample_dims" VNone kws /\ kwarg "batch_dim" VNone kwq = kwarg "batch_dim" VNone kws /\
      returns (run (gsteps (S s) t (gsweeps S_ s)) (VDict c0) kwq) s0 prev s1 /\ step_weight t s kws o prev.
  Proof.
    intros Hs Ht Hp Hc H. eapply step_synced; [exact Ht|exact Hp|exact Hc| | |exact H].
    - intros kws2 Hp2. apply steps_ready; [exact Hs|exact Ht|exact Hp2|exact Hc].
    - intros kws2 o2 s2 Hp2 H2. eapply (steps_synced S_ s); [exact Hs| |exact Ht|exact Hp2|exact Hc|exact H2]. intros kws3 s3 o3 s4 Hp3 Hc3 H3; exact (sweeps_synced S_ s (Nat.lt_le_incl _ _ Hs) _ _ _ _ Hp3 Hc3 H3).
  Qed.
End Weights.
