(** Proof that the importance sampling of the Gibbs experiment is properly weighted. *)
From Verif Require Export SpecGibbsProper Thm_GibbsWeight.
From Verif Require Import Thm_Proper Prop_Gibbs.
From Coq Require Import Lra.
Close Scope R_scope.
Open Scope nat_scope.

Section Expectations.
  Context {L : lib} (M : measures L) (ML : measure_laws M).
  Notation E := (expect M). Notation pm := (pmass M). Notation int := (integral M).
  Notation pyval := (pyval (T L)). Notation trace := (trace L).

  Lemma pm_pos d v : (0 < pm d v)%R. Proof. apply exp_pos. Qed.
  Lemma mass_one d c : int (space M d) (fun v => (pm d v * c)%R) = c.
  Proof.
    rewrite (int_ext M ML _ _ (fun v => (c * pm d v)%R)) by (intros; ring). rewrite (int_scale M ML).
    unfold pmass. rewrite (normalised M ML). ring.
  Qed.
  Lemma exec_mass cond m c : forall (tr : trace) s, E (exec (L := L) cond m tr s) (fun _ => c) = c.
  Proof.
    induction m as [o'|e|a d value rep k IH|a r0 k IH|k IH|k IH|d rep shape k IH|key k IH|key v k IH]; intros tr s; cbn [exec]; try reflexivity; auto.
    - assert (Hfin : forall v p s, E (mbind (lift (add_node a (mkRV (Proper d) v (logp L d v) p rep true) tr)) (fun tr' => exec cond (k v) tr') s) (fun _ => c) = c).
      { intros v p s0. rewrite mbind_lift. destruct (add_node _ _ _); [apply IH|reflexivity]. }
      destruct value as [[v pv]|]; [apply Hfin|]. destruct (match cond with Some ct => dget a ct | None => None end); [apply Hfin|].
      cbn [expect]. rewrite (int_ext M ML _ _ (fun v => (pm d v * c)%R)); [apply mass_one|]. intros v. f_equal. apply Hfin.
    - cbn [expect]. rewrite (int_ext M ML _ _ (fun v => (pm d v * c)%R)); [apply mass_one|]. intros v. rewrite IH. reflexivity.
  Qed.
  Lemma prog_mass oid sg m v (kws : dict pyval) s c : plain_call kws -> firstn 3 (s_args sg) = ["self"; "trace"; "c"] ->
    E (run (IProg oid sg m) v kws s) (fun _ => c) = c.
  Proof.
    intros Hp Hs. cbn [run]. rewrite (E_teq M ML _ _ _ (forward_eq oid sg m v kws s (plain_prog sg kws Hp Hs))), (E_tbind M ML).
    etransitivity; [|apply exec_mass]. apply (E_ext_out M ML). intros [[ot|e] s1] _; reflexivity.
  Qed.

  Lemma objects_ext d : forall n acc g g', (forall zs, length zs = n -> g (acc ++ zs) = g' (acc ++ zs)) ->
    over_objects M d n acc g = over_objects M d n acc g'.
  Proof.
    induction n as [|n IH]; intros acc g g' H; cbn [over_objects].
    - specialize (H [] eq_refl). rewrite app_nil_r in H. exact H.
    - apply (int_ext M ML). intros v. apply IH. intros zs Hl. rewrite <- app_assoc. apply (H (v :: zs)). cbn. lia.
  Qed.
  Lemma objects_scale d c : forall n acc g, over_objects M d n acc (fun zs => (c * g zs)%R) = (c * over_objects M d n acc g)%R.
  Proof.
    induction n as [|n IH]; intros acc g; cbn [over_objects]; [reflexivity|].
    rewrite <- (int_scale M ML). apply (int_ext M ML). intros v. apply IH.
  Qed.
  Lemma skipn_length_app {A} (a b : list A) : skipn (length a) (a ++ b) = b.
  Proof. rewrite skipn_app, skipn_all, Nat.sub_diag. reflexivity. Qed.
  Lemma objects_E cond d k (tr : trace) s f : forall n acc,
    E (exec cond (draw_objects L d n acc k) tr s) f =
    over_objects M d n acc (fun zs => (objects_mass M d acc (skipn (length acc) zs) * E (exec cond (k zs) tr s) f)%R).
  Proof.
    induction n as [|n IH]; intros acc; cbn [draw_objects over_objects].
    - rewrite skipn_all. cbn [objects_mass]. ring.
    - cbn [exec expect]. apply (int_ext M ML). intros v. rewrite IH, <- objects_scale. apply objects_ext. intros zs Hl.
      rewrite skipn_length_app, <- (app_assoc acc [v] zs), skipn_length_app. cbn [app objects_mass]. ring.
  Qed.
  Lemma objects_mass_pos d : forall zs acc, (0 < objects_mass M d acc zs)%R.
  Proof. induction zs as [|z zs IH]; intros acc; cbn [objects_mass]; [lra|]. apply Rmult_lt_0_compat; [apply pm_pos|apply IH]. Qed.
  Lemma objects_one d : forall n acc, over_objects M d n acc (fun zs => objects_mass M d acc (skipn (length acc) zs)) = 1%R.
  Proof.
    induction n as [|n IH]; intros acc; cbn [over_objects]; [rewrite skipn_all; reflexivity|].
    rewrite (int_ext M ML _ _ (fun v => (pm (d acc) v * 1)%R)); [apply mass_one|]. intros v. rewrite <- (IH (acc ++ [v])), <- objects_scale.
    apply objects_ext. intros zs _. rewrite skipn_length_app, <- (app_assoc acc [v] zs), skipn_length_app. reflexivity.
  Qed.
End Expectations.

Section Initial.
  Context {L : lib} (HL : lib_laws L) (HT : tensor_laws L) (Hlj : forall r b p, lj_ok L r b p = true).
  Context (M : measures L) (ML : measure_laws M).
  Notation pyval := (pyval (T L)). Notation trace := (trace L). Notation out := (out L).
  Notation E := (expect M). Notation pm := (pmass M). Notation int := (integral M).
  Context (N : nets L) (same : T L -> T L -> bool) (wmean : T L -> T L -> T L).
  Context (one : T L -> Prop) (Wsp Dsp : Sp M) (HS : stacked M N one Wsp Dsp).
  Lemma shaped_ext f kr t : forall n acc g g', (forall zs, length zs = n -> Forall one zs -> g (acc ++ zs) = g' (acc ++ zs)) ->
    over_objects M (coor_obj L N f kr t) n acc g = over_objects M (coor_obj L N f kr t) n acc g'.
  Proof.
    induction n as [|n IH]; intros acc g g' H; cbn [over_objects].
    - specialize (H [] eq_refl (Forall_nil _)). rewrite app_nil_r in H. exact H.
    - apply (st_one M N _ _ _ HS). intros v Hv. apply IH. intros zs Hl Ho. rewrite <- app_assoc. apply (H (v :: zs)); [cbn; lia|constructor; assumption].
  Qed.
  Context (T_ : nat) (Hpos : 0 < T_) (c0 : dict pyval) (fr : T L).
  Context (Hc0 : dget "frames" c0 = Some (VTensor fr)) (Hfr : n_frames L N fr = T_).

  (** *** the encoders *)
  Lemma coor_E kws s d f t sweep kr F : plain_call kws -> kwarg "ix" VNone kws = apg_ix L (Z.of_nat t) sweep "forward" ->
    dget "frames" d = Some (VTensor f) -> n_frames L N f = T_ -> t < T_ ->
    (if Z.eqb sweep 0 then kr = None else exists w, kr = Some w /\ dget (z_what (sweep - 1)) d = Some (VTensor w)) ->
    exists X, E (run (enc_coor L N) (VDict d) kws s) F =
      over_objects M (coor_obj L N f kr (Z.of_nat t)) (n_objects L N) [] (fun zs =>
        (objects_mass M (coor_obj L N f kr (Z.of_nat t)) [] zs * F (X zs))%R) /\
    forall zs, length zs = n_objects L N -> outcome (run (enc_coor L N) (VDict d) kws s) (X zs) /\ exists o, fst (X zs) = Ok o /\
      let dd := coor_all L N f kr (Z.of_nat t) zs in let z := coor_cat L N zs in
      out_trace o = [(z_where (Z.of_nat t) sweep, mkRV (Proper dd) z (logp L dd z) SAMPLED (reparam L N) true)].
  Proof.
    intros Hp Hix Hf Hn Ht Hkr. unfold enc_coor. cbn [run].
    pose proof (forward_eq 1 (enc_sig) (enc_coor_model L N) (VDict d) kws s (plain_prog enc_sig kws Hp eq_refl)) as Heq.
    set (s0 := log_call _ s) in Heq. 
    assert (Em : enc_coor_model L N (VDict d) (prog_kwargs enc_sig kws) =
      draw_objects L (coor_obj L N f kr (Z.of_nat t)) (n_objects L N) [] (fun zs =>
        MVar (z_where (Z.of_nat t) sweep) (coor_all L N f kr (Z.of_nat t) zs) (Some (coor_cat L N zs, Some SAMPLED)) (reparam L N) (fun _ =>
        MSetStore (z_where (Z.of_nat t) sweep) (VTensor (coor_cat L N zs))
          (MRet (if Z.eqb sweep 0 then VDict (dset (z_where (Z.of_nat t) sweep) (VTensor (coor_cat L N zs)) d) else VDict d))))).
    { unfold enc_coor_model. rewrite prog_kwargs_ix, Hix; [|cbn; tauto|apply Hp]. cbn [of_ix apg_ix].
      assert (Ei : item L (VDict d) "frames" = Ok f) by (unfold item; rewrite Hf; reflexivity).
      rewrite Ei. cbn [of_res].
      assert (Ek : (if Z.eqb sweep 0 then Ok None else rmap Some (item L (VDict d) (z_what (sweep - 1)))) = Ok kr).
      { destruct (Z.eqb sweep 0); [subst kr; reflexivity|]. destruct Hkr as (w & -> & Hw). unfold item. rewrite Hw. reflexivity. }
      rewrite Ek. cbn [of_res]. rewrite Hn.
      destruct (Z.ltb_spec (Z.of_nat t) 0); [lia|]. destruct (Z.leb_spec (Z.of_nat T_) (Z.of_nat t)); [lia|]. cbn [orb]. reflexivity. }
    rewrite Em in Heq.
    set (ou zs := if Z.eqb sweep 0 then VDict (dset (z_where (Z.of_nat t) sweep) (VTensor (coor_cat L N zs)) d) else VDict d) in *.
    set (nd zs := mkRV (L := L) (Proper (coor_all L N f kr (Z.of_nat t) zs)) (coor_cat L N zs) (logp L (coor_all L N f kr (Z.of_nat t) zs) (coor_cat L N zs)) SAMPLED (reparam L N) true).
    set (tr zs := [(z_where (Z.of_nat t) sweep, nd zs)]).
    set (s1 zs := set_store (dset (z_where (Z.of_nat t) sweep) (VTensor (coor_cat L N zs)) (store s0)) s0).
    exists (fun zs => (prog_tail kws (get_cond 1 s) (ou zs, tr zs), s1 zs)). split.
    - rewrite (E_teq M ML _ _ _ Heq), (E_tbind M ML), (objects_E M ML). apply (objects_ext M ML). intros zs _. cbn [app length skipn]. reflexivity.
    - intros zs Hl. split.
      + eapply Thm_Gibbs.teq_outcome; [apply teq_sym; exact Heq|]. apply outcome_tbind. exists (Ok (ou zs, tr zs), s1 zs). split; [|constructor].
        clear Heq Em. 
        assert (Hd : forall k n acc zs, length zs = n -> forall x, outcome (exec (get_cond 1 s) (k (acc ++ zs)) [] s0) x ->
          outcome (exec (get_cond 1 s) (draw_objects L (coor_obj L N f kr (Z.of_nat t)) n acc k) [] s0) x).
        { intros k. induction n as [|n IH]; intros acc zs' Hl' x Hx; destruct zs' as [|z zs']; try discriminate; cbn [draw_objects].
          - rewrite app_nil_r in Hx. exact Hx.
          - cbn [exec]. apply (out_draw _ _ z). apply (IH (acc ++ [z]) zs'); [injection Hl' as ->; reflexivity|]. rewrite <- app_assoc. exact Hx. }
        apply (Hd _ _ [] zs Hl). cbn [exec app]. rewrite mbind_lift. cbn [add_node dmem dget dset]. unfold s1, tr, nd. cbn [exec]. constructor.
      + cbn [fst prog_tail]. destruct (log_joint_ok HL Hlj (k_sd kws) (k_bd kws) (k_rep kws)
          (sdiff (dkeys (tr zs)) (sdiff (latent_addrs (tr zs)) (match get_cond 1 s with Some ct => latent_addrs ct | None => [] end))) (tr zs)) as [w Hw].
        rewrite Hw. cbn [rbind]. eexists. split; [reflexivity|]. reflexivity.
  Qed.

  Lemma digit_E kws s d f t sweep ws F : plain_call kws -> kwarg "ix" VNone kws = apg_ix L t sweep "forward" ->
    dget "frames" d = Some (VTensor f) -> n_frames L N f = T_ -> get_cond 2 s = None ->
    Forall2 (fun k x => dget k d = Some (VTensor x)) (map (fun i => z_where (Z.of_nat i) sweep) (seq 0 T_)) ws ->
    exists X, E (run (enc_digit L N) (VDict d) kws s) F = int Dsp (fun z => (pm (digit_all L N f ws) z * F (X z))%R) /\
    forall z, outcome (run (enc_digit L N) (VDict d) kws s) (X z) /\ exists o, fst (X z) = Ok o /\
      out_trace o = [(z_what sweep, mkRV (Proper (digit_all L N f ws)) z (logp L (digit_all L N f ws) z) SAMPLED (reparam L N) true)].
  Proof.
    intros Hp Hix Hf Hn Hc Hws. unfold enc_digit. cbn [run].
    pose proof (forward_eq 2 (enc_sig) (enc_digit_model L N) (VDict d) kws s (plain_prog enc_sig kws Hp eq_refl)) as Heq.
    set (s0 := log_call _ s) in Heq. rewrite Hc in *.
    assert (Em : enc_digit_model L N (VDict d) (prog_kwargs enc_sig kws) =
      MVar (z_what sweep) (digit_all L N f ws) None (reparam L N) (fun z => MSetStore (z_what sweep) (VTensor z) (MRet VNone))).
    { unfold enc_digit_model. rewrite prog_kwargs_ix, Hix; [|cbn; tauto|apply Hp]. cbn [of_ix apg_ix].
      assert (Ei : item L (VDict d) "frames" = Ok f) by (unfold item; rewrite Hf; reflexivity).
      rewrite Ei. cbn [of_res]. rewrite Hn.
      assert (E0 : exists x, item L (VDict d) (z_where 0 sweep) = Ok x).
      { destruct T_ as [|n]; [lia|]. cbn [seq map] in Hws. inversion Hws as [|? x ? ? Hx]; subst. exists x. unfold item. assert (Hx' : dget (z_where 0 sweep) d = Some (VTensor x)) by exact Hx. rewrite Hx'. reflexivity. }
      destruct E0 as [x0 ->]. cbn [of_res].
      assert (Ews : forall ks l, Forall2 (fun k x => dget k d = Some (VTensor x)) ks l -> items_of L (VDict d) ks = Ok l).
      { clear. induction 1 as [|k x ks l H1 _ IH]; cbn [items_of]; [reflexivity|]. unfold item at 1. rewrite H1. cbn [rbind]. rewrite IH. reflexivity. }
      rewrite (Ews _ _ Hws). reflexivity. }
    rewrite Em in Heq.
    set (tr z := [(z_what sweep, mkRV (L := L) (Proper (digit_all L N f ws)) z (logp L (digit_all L N f ws) z) SAMPLED (reparam L N) true)]).
    set (s1 z := set_store (dset (z_what sweep) (VTensor z) (store s0)) s0).
    exists (fun z => (prog_tail kws None (VNone, tr z), s1 z)). split.
    - rewrite (E_teq M ML _ _ _ Heq). cbn [exec expect tbind]. rewrite (st_what M N _ _ _ HS). apply (int_ext M ML). intros z. reflexivity.
    - intros z. split.
      + eapply Thm_Gibbs.teq_outcome; [apply teq_sym; exact Heq|]. cbn [exec tbind]. apply (out_draw _ _ z). rewrite mbind_lift. cbn [add_node dmem dget dset exec tbind].
        unfold after. cbn [fst snd]. unfold s1, tr. constructor.
      + cbn [fst prog_tail]. destruct (log_joint_ok HL Hlj (k_sd kws) (k_bd kws) (k_rep kws)
          (sdiff (dkeys (tr z)) (sdiff (latent_addrs (tr z)) [])) (tr z)) as [w Hw].
        rewrite Hw. cbn [rbind]. eexists. split; reflexivity.
  Qed.

  (** *** the compositions *)
  Lemma compose_E oid q2 q1 o c (kws : dict pyval) s f : plain_call kws ->
    E (run (ICompose oid q2 q1 o) c kws s) f =
    E (run q1 c (sub_kwargs (in_ix o) kws) s) (fun x => match fst x with
      | Ok o1 => E (run q2 (out_output o1) (sub_kwargs (in_ix o) kws) (snd x)) (fun y => match fst y with
          | Ok o2 => f (compose_tail o kws o1 o2, snd y)
          | Err e => f (Err e, snd y) end)
      | Err e => f (Err e, snd x) end).
  Proof.
    intros Hp. rewrite (E_teq M ML _ _ _ (run_compose_eq oid q2 q1 o c kws s (proj1 Hp) ltac:(apply plain_clash; [exact Hp|cbn; tauto]))).
    rewrite (E_tbind M ML). apply (E_ext_out M ML). intros [[o1|e] s1] _; unfold after; cbn [fst snd expect]; [|reflexivity].
    rewrite (E_tbind M ML). apply (E_ext_out M ML). intros [[o2|e] s2] _; reflexivity.
  Qed.
  Lemma compose_outcome oid q2 q1 o c (kws : dict pyval) s o1 s1 o2 s2 : plain_call kws ->
    outcome (run q1 c (sub_kwargs (in_ix o) kws) s) (Ok o1, s1) ->
    outcome (run q2 (out_output o1) (sub_kwargs (in_ix o) kws) s1) (Ok o2, s2) ->
    outcome (run (ICompose oid q2 q1 o) c kws s) (compose_tail o kws o1 o2, s2).
  Proof.
    intros Hp H1 H2. eapply Thm_Gibbs.teq_outcome; [apply teq_sym, run_compose_eq; [apply Hp|apply plain_clash; [exact Hp|cbn; tauto]]|].
    apply outcome_tbind. exists (Ok o1, s1). split; [exact H1|]. unfold after at 1. cbn [fst snd]. apply outcome_tbind. exists (Ok o2, s2). split; [exact H2|constructor].
  Qed.
  Lemma propose_E oid p q o tf nr c (kws : dict pyval) s f : plain_call kws -> wf_st s -> is_compose p = false ->
    (forall qo s1, outcome (run q c (sub_kwargs (in_ix o) kws) s) (Ok qo, s1) -> wf_dict (out_trace qo)) ->
    E (run (IPropose oid p q o tf nr) c kws s) f =
    E (run q c (sub_kwargs (in_ix o) kws) s) (fun x => match fst x with
      | Ok qo => E (run p c (sub_kwargs (in_ix o) kws) (set_cond (oid_of p) (Some (out_trace qo)) (snd x))) (fun y => match fst y with
          | Ok po => f (propose_tail o p q tf nr kws qo po, set_cond (oid_of p) None (snd y))
          | Err e => f (Err e, set_cond (oid_of p) None (snd y)) end)
      | Err e => f (Err e, snd x) end).
  Proof.
    intros Hp Hs Hc Hw. rewrite (E_teq M ML _ _ _ (run_propose_eq oid p q o tf nr c kws s (proj1 Hp) Hs ltac:(apply plain_clash; [exact Hp|cbn; tauto]) Hc)).
    rewrite (E_tbind M ML). apply (E_ext_out M ML). intros [[qo|e] s1] Hq; unfold after; cbn [fst snd expect]; [|reflexivity].
    rewrite with_eq by (intros tr [= <-]; eapply Hw, Hq). rewrite !(E_tbind M ML). apply (E_ext_out M ML). intros [[po|e] s2] _; reflexivity.
  Qed.
  Lemma propose_outcome oid p q o tf nr c (kws : dict pyval) s qo s1 y : plain_call kws -> wf_st s -> is_compose p = false ->
    wf_dict (out_trace qo) ->
    outcome (run q c (sub_kwargs (in_ix o) kws) s) (Ok qo, s1) ->
    outcome (run p c (sub_kwargs (in_ix o) kws) (set_cond (oid_of p) (Some (out_trace qo)) s1)) y ->
    outcome (run (IPropose oid p q o tf nr) c kws s)
      (match fst y with Ok po => propose_tail o p q tf nr kws qo po | Err e => Err e end, set_cond (oid_of p) None (snd y)).
  Proof.
    intros Hp Hs Hc Hw H1 H2. eapply Thm_Gibbs.teq_outcome; [apply teq_sym, run_propose_eq; [apply Hp|exact Hs|apply plain_clash; [exact Hp|cbn; tauto]|exact Hc]|].
    apply outcome_tbind. exists (Ok qo, s1). split; [exact H1|]. unfold after at 1. cbn [fst snd].
    rewrite with_eq by (intros tr [= <-]; exact Hw). apply outcome_tbind. exists (fst y, set_cond (oid_of p) None (snd y)).
    split; [apply outcome_tbind; exists y; split; [exact H2|constructor]|]. destruct y as [[po|e] s2]; constructor.
  Qed.

  Definition positions (n : nat) (o : out) : list (T L) := map (fun i => value_at (out_trace o) (z_where (Z.of_nat i) 0)) (seq 0 n).
  Definition Rprod (l : list R) : R := fold_right Rmult 1%R l.
  Lemma Rprod_app a b : Rprod (a ++ b) = (Rprod a * Rprod b)%R.
  Proof. induction a as [|x a IH]; cbn [app Rprod fold_right]; [symmetry; apply Rmult_1_l|]. fold (Rprod (a ++ b)). fold (Rprod a). rewrite IH. ring. Qed.
  Lemma Rprod_pos l : (forall x, In x l -> (0 < x)%R) -> (0 < Rprod l)%R.
  Proof. induction l as [|x l IH]; intros H; cbn; [lra|]. apply Rmult_lt_0_compat; [apply H; left; reflexivity|apply IH; intros; apply H; right; assumption]. Qed.
  Definition encoded (n : nat) (o : out) : R := Rprod (map (fun i => exp (lw M (density_at (out_trace o) (z_where (Z.of_nat i) 0)))) (seq 0 n)).
  Lemma encoded_pos n o : (0 < encoded n o)%R.
  Proof. apply Rprod_pos. intros x Hx. apply in_map_iff in Hx. destruct Hx as (i & <- & _). apply exp_pos. Qed.

  Lemma composes_E n : n <= T_ -> forall kws s0 f g, plain_call kws -> calm same s0 ->
    (forall o s', outcome (run (is_composes L N n) (VDict c0) kws s0) (Ok o, s') -> (f (Ok o, s') * encoded n o)%R = g (positions n o)) ->
    E (run (is_composes L N n) (VDict c0) kws s0) f = over_positions M Wsp n g.
  Proof.
    induction n as [|n IH]; intros Hn kws s0 f g Hp Hcalm H; cbn [is_composes over_positions].
    - cbn [is_composes] in H. unfold noop in H |- *. cbn [run] in H |- *.
      pose proof (forward_eq 0 (mkSig ["self"; "trace"; "c"] [] false) (noop_model L) (VDict c0) kws s0 (plain_prog (mkSig ["self"; "trace"; "c"] [] false) kws Hp eq_refl)) as Heq.
      rewrite (E_teq M ML _ _ _ Heq). cbn [noop_model exec] in Heq |- *. unfold ret in *. cbn [tbind] in *. unfold after in *. cbn [fst snd] in *. cbn [expect].
      match type of Heq with teq _ (Leaf (?p, ?s)) => change (f (p, s) = g []); destruct p as [o|e] eqn:Eo end.
      + pose proof (Thm_Gibbs.teq_outcome _ _ _ (teq_sym _ _ Heq) (out_leaf _)) as Ho.
        change (g []) with (g (positions 0 o)). rewrite <- (H o _ Ho). unfold encoded. cbn. ring.
      + exfalso. cbn [prog_tail] in Eo. match type of Eo with context [log_joint ?a ?b ?r ?n ?t] => destruct (log_joint_ok HL Hlj a b r n t) as [w Hw]; rewrite Hw in Eo end. discriminate.
    - rewrite compose_E by exact Hp. cbn [in_ix copts]. set (kw1 := sub_kwargs _ kws) in *. assert (Hp1 : plain_call kw1) by apply plain_sub, Hp.
      apply IH; [lia|exact Hp1|exact Hcalm|]. intros o1 s1 H1. cbn [fst snd].
      destruct (composes_spec HL N same T_ Hpos c0 fr Hc0 Hfr n ltac:(lia) kw1 s0 o1 s1 Hp1 Hcalm H1) as (Hcalm1 & Hlw1 & zs & d & Ed & Hf & Hwf1 & Hk1 & Hi1).
      assert (Hnew : ~ In (z_where (Z.of_nat n) 0) (dkeys (out_trace o1))).
      { rewrite Hk1. intros (i & Hi & Ei). apply z_where_inj in Ei. lia. }
      rewrite Ed.
      assert (Hix : kwarg "ix" VNone kw1 = apg_ix L (Z.of_nat n) 0 "forward") by (apply sub_ix; reflexivity).
      match goal with |- (E _ ?F * _)%R = _ => destruct (coor_E kw1 s1 d fr n 0 None F Hp1 Hix Hf Hfr ltac:(lia) eq_refl) as (X & EX & HX); rewrite EX end.
      rewrite Rmult_comm, <- (objects_scale M ML), <- (st_space M N _ _ _ HS fr None (Z.of_nat n)). apply (shaped_ext fr None (Z.of_nat n)). intros z Hl Ho. cbn [app] in *.
      destruct (HX z Hl) as (HX1 & o2 & E2 & Htr2). cbn zeta in Htr2. destruct (X z) as [r2 s2]. cbn [fst snd] in *. subst r2.
      rewrite <- Ed in HX1. pose proof (compose_outcome (4 + n) _ _ (copts L default_loss (apg_ix L (Z.of_nat n) 0 "forward") false) _ kws s0 _ _ _ _ Hp H1 HX1) as Hout.
      destruct (compose_tail_ok (copts L default_loss (apg_ix L (Z.of_nat n) 0 "forward") false) kws o1 o2) as (r & Er & Htq & _);
        [reflexivity|exact Hwf1|rewrite Htr2; repeat constructor; intros []|rewrite Htr2; intros k [<-|[]]; exact Hnew|].
      rewrite Er in Hout |- *. pose proof (H r s2 Hout) as Hr. rewrite Htr2 in Htq. cbn [app] in Htq.
      assert (Hold : forall i, i < n -> dget (z_where (Z.of_nat i) 0) (out_trace r) = dget (z_where (Z.of_nat i) 0) (out_trace o1)).
      { intros i Hi. rewrite Htq. cbn [dget]. destruct (String.eqb_spec (z_where (Z.of_nat i) 0) (z_where (Z.of_nat n) 0)) as [Ei|_]; [|reflexivity].
        apply z_where_inj in Ei. lia. }
      assert (Hget : dget (z_where (Z.of_nat n) 0) (out_trace r) = Some (mkRV (Proper (coor_all L N fr None (Z.of_nat n) z)) (coor_cat L N z) (logp L (coor_all L N fr None (Z.of_nat n) z) (coor_cat L N z)) SAMPLED (reparam L N) true))
        by (rewrite Htq; cbn [dget]; rewrite String.eqb_refl; reflexivity).
      assert (Epos : positions (S n) r = positions n o1 ++ [coor_cat L N z]).
      { unfold positions. rewrite seq_S, map_app. cbn [map plus]. f_equal.
        - apply map_ext_in. intros i Hi. apply in_seq in Hi. unfold value_at. rewrite Hold by lia. reflexivity.
        - unfold value_at. rewrite Hget. reflexivity. }
      assert (Eenc : encoded (S n) r = (encoded n o1 * pm (coor_all L N fr None (Z.of_nat n) z) (coor_cat L N z))%R).
      { unfold encoded. rewrite seq_S, map_app, Rprod_app. cbn [map plus]. f_equal.
        - f_equal. apply map_ext_in. intros i Hi. apply in_seq in Hi. unfold density_at. rewrite Hold by lia. reflexivity.
        - cbn [Rprod fold_right]. rewrite Rmult_1_r. unfold density_at. rewrite Hget. reflexivity. }
      rewrite Epos, Eenc, (st_density M N _ _ _ HS fr None (Z.of_nat n) z Hl Ho) in Hr. rewrite <- Hr. ring.
  Qed.

  (** *** densities *)
  Definition masses (l : list (T L)) : R := Rprod (map (fun x => exp (lw M x)) l).
  Lemma total_mass sd bd l : exp (lw M (tsum (map (bsum L sd bd) l))) = masses l.
  Proof.
    unfold masses. induction l as [|x l IH]; cbn [map Rprod fold_right].
    - change (tsum []) with (tzero L). rewrite (lw_zero M ML). apply exp_0.
    - rewrite tsum_cons, (lw_add M ML), exp_plus, (lw_bsum M ML), IH. reflexivity.
  Qed.
  Lemma masses_app a b : masses (a ++ b) = (masses a * masses b)%R.
  Proof. unfold masses. rewrite map_app. apply Rprod_app. Qed.
  Lemma masses_pos l : (0 < masses l)%R.
  Proof. apply Rprod_pos. intros x Hx. apply in_map_iff in Hx. destruct Hx as (y & <- & _). apply exp_pos. Qed.
  Lemma walk_seq (w : nat -> T L) : forall n a,
    walk_mass M N (match a with O => None | S j => Some (w j) end) (map w (seq a n)) =
    masses (map (fun i => logp L (match i with O => prior_where0 L N | S j => prior_wheret L N (w j) end) (w i)) (seq a n)).
  Proof.
    unfold masses. induction n as [|n IH]; intros a; cbn [seq map walk_mass Rprod fold_right]; [reflexivity|].
    fold (Rprod (map (fun x => exp (lw M x)) (map (fun i => logp L (match i with O => prior_where0 L N | S j => prior_wheret L N (w j) end) (w i)) (seq (S a) n)))).
    rewrite <- (IH (S a)). destruct a; reflexivity.
  Qed.
  Lemma video_masses v s : masses (joint_logp N T_ fr v T_ s) =
    video_mass M N fr (map (fun i => v (z_where (Z.of_nat i) (Z.of_nat s))) (seq 0 T_)) (v (z_what (Z.of_nat s))).
  Proof.
    unfold joint_logp, video_mass. rewrite masses_app. unfold digits_at. rewrite Nat.eqb_refl.
    assert (Ep : forall i, i < T_ -> position_at T_ s i = z_where (Z.of_nat i) (Z.of_nat s)).
    { intros i Hi. unfold position_at, current_where. destruct (Z.leb_spec (Z.of_nat i) (Z.of_nat T_)); [reflexivity|lia]. }
    rewrite (map_ext_in (fun i => v (position_at T_ s i)) (fun i => v (z_where (Z.of_nat i) (Z.of_nat s))))
      by (intros i Hi; apply in_seq in Hi; rewrite Ep by lia; reflexivity).
    rewrite (walk_seq (fun i => v (z_where (Z.of_nat i) (Z.of_nat s))) T_ 0).
    rewrite (map_ext_in (fun i => logp L (position_prior N v T_ s i) (v (position_at T_ s i)))
      (fun i => logp L (match i with O => prior_where0 L N | S j => prior_wheret L N (v (z_where (Z.of_nat j) (Z.of_nat s))) end) (v (z_where (Z.of_nat i) (Z.of_nat s))))).
    - unfold masses at 2. cbn [map Rprod fold_right]. unfold pmass. ring.
    - intros i Hi. apply in_seq in Hi. rewrite Ep by lia. unfold position_prior. destruct i as [|j]; [reflexivity|]. rewrite Nat.min_l by lia. reflexivity.
  Qed.
  Lemma propose_tail_px o p q nr (kws : dict pyval) (qo po r : out) : wf_dict (out_trace qo) -> wf_dict (out_trace po) ->
    propose_tail o p q None nr kws qo po = Ok r ->
    exists px, out_px r = Some px /\ px_proposal_trace px = out_trace qo /\
      out_lw r = detach L (tadd L (out_lw qo) (px_lv px)).
  Proof.
    intros Wq Wp H. unfold propose_tail in H. cbn [apply_transf rbind] in H.
    destruct (log_joint _ _ _ _ _) as [lu1|e]; cbn [rbind] in H; [|discriminate].
    destruct (marginalize p po) as [[mo mt]|e]; cbn [rbind fst snd] in H; [|discriminate].
    destruct (if nr then Ok mt else rerun_with_detached_values mt) as [tr|e]; cbn [rbind] in H; [|discriminate].
    destruct (is_tensor L (tadd L (out_lw qo) (tsub L (out_lw po) lu1))); cbn [rbind] in H; [|discriminate].
    rewrite !copytraces_one in H by assumption. cbn [rbind] in H.
    destruct (forward_trace q qo) as [fw|e]; cbn [rbind] in H; [|discriminate].
    match type of H with context [add_loss ?a ?b ?c ?d] => destruct (add_loss a b c d) as [r'|e] eqn:Ea end; cbn [rbind] in H; [|discriminate].
    injection H as <-. apply add_loss_ok in Ea. destruct Ea as (l & _ & ->).
    unfold add_subs. destruct (_ || _); eexists; (split; [reflexivity|]); split; reflexivity.
  Qed.

  (** *** importance sampling *)
  Context (Hdet : forall x, n_frames L N (detach L x) = n_frames L N x).
  Theorem initial_E kws s0 h : plain_call kws -> calm same s0 ->
    E (run (initial_is L N wmean T_) (VDict c0) kws s0) (weighted_sample M T_ 0 h) =
    over_positions M Wsp T_ (fun ws => int Dsp (fun z => (video_mass M N fr ws z * h ws z)%R)).
  Proof.
    intros Hp Hcalm. pose proof (initial_good HL HT Hlj N same wmean (fun x => x) Hdet T_ Hpos c0 fr Hc0 Hfr kws s0 Hp Hcalm) as Hgood.
    pose proof (initial_synced HL N same wmean (fun x => x) T_ Hpos c0 fr Hc0 Hfr kws s0) as Hsync.
    unfold initial_is in *. assert (Hwst : wf_st s0) by (eapply calm_wf, Hcalm).
    set (kw1 := sub_kwargs (L := L) (apg_ix L (Z.of_nat T_) 0 "forward") kws) in *. assert (Hp1 : plain_call kw1) by apply plain_sub, Hp.
    set (kwf := sub_kwargs (apg_ix L (Z.of_nat T_) 0 "forward") kw1). assert (Hpf : plain_call kwf) by apply plain_sub, Hp1.
    rewrite propose_E; [|exact Hp|exact Hwst|reflexivity|].
    2:{ intros qo s1 Hq. exact (proj1 (run_returns_wf _ _ _ _ _ _ (wf_sub_kwargs _ _ (proj1 Hp)) Hwst Hq)). }
    cbn [in_ix copts oid_of dec]. fold kw1. rewrite compose_E by exact Hp1. cbn [in_ix copts]. fold kwf.
    apply composes_E; [lia|exact Hpf|exact Hcalm|]. intros o1 s1 H1. cbn [fst snd].
    destruct (composes_spec HL N same T_ Hpos c0 fr Hc0 Hfr T_ (le_n _) kwf s0 o1 s1 Hpf Hcalm H1) as (Hcalm1 & Hlw1 & zs & d & Ed & Hf & Hwf1 & Hk1 & Hi1).
    assert (Hnew : ~ In (z_what 0) (dkeys (out_trace o1))) by (rewrite Hk1; intros (i & _ & Ei); discriminate).
    assert (Hixf : kwarg "ix" VNone kwf = apg_ix L (Z.of_nat T_) 0 "forward") by (apply sub_ix; reflexivity).
    assert (Hws : Forall2 (fun k x => dget k d = Some (VTensor x)) (map (fun i => z_where (Z.of_nat i) 0) (seq 0 T_)) (positions T_ o1)).
    { assert (Hle : forall n, n <= T_ -> Forall2 (fun k x => dget k d = Some (VTensor x)) (map (fun i => z_where (Z.of_nat i) 0) (seq 0 n)) (positions n o1)).
      { induction n as [|n IHn]; intros Hn; [constructor|]. unfold positions. rewrite seq_S, !map_app. apply Forall2_app; [apply IHn; lia|].
        cbn [map plus]. constructor; [|constructor]. destruct (Hi1 n ltac:(lia)) as (E1 & E2 & _). rewrite (value_at_get _ _ _ E1). exact E2. }
      apply Hle, le_n. }
    rewrite Ed.
    match goal with |- (E _ ?F * _)%R = _ => destruct (digit_E kwf s1 d fr (Z.of_nat T_) 0 (positions T_ o1) F Hpf Hixf Hf Hfr (proj1 Hcalm1 2) Hws) as (X & EX & HX); rewrite EX end.
    rewrite Rmult_comm, <- (int_scale M ML). apply (int_ext M ML). intros z.
    destruct (HX z) as (HX1 & o2 & E2 & Htr2). destruct (X z) as [r2 s2]. cbn [fst snd] in *. subst r2.
    rewrite <- Ed in HX1. 
    pose proof (compose_outcome (4 + T_) _ _ (copts L default_loss (apg_ix L (Z.of_nat T_) 0 "forward") false) _ kw1 s0 _ _ _ _ Hp1 H1 HX1) as Hout.
    destruct (compose_tail_ok (copts L default_loss (apg_ix L (Z.of_nat T_) 0 "forward") false) kw1 o1 o2) as (qo & Er & Htq & _);
      [reflexivity|exact Hwf1|rewrite Htr2; repeat constructor; intros []|rewrite Htr2; intros k [<-|[]]; exact Hnew|].
    rewrite Er in Hout |- *. rewrite Htr2 in Htq. cbn [app] in Htq.
    assert (Hwq : wf_dict (out_trace qo)).
    { rewrite Htq. apply (wf_app L [(_, _)]); [repeat constructor; intros []|exact Hwf1|]. intros k [<-|[]]. exact Hnew. }
    set (dz := digit_all L N fr (positions T_ o1)) in *.
    assert (Hget0 : dget (z_what 0) (out_trace qo) = Some (mkRV (Proper dz) z (logp L dz z) SAMPLED (reparam L N) true))
      by (rewrite Htq; cbn [dget]; rewrite String.eqb_refl; reflexivity).
    assert (Hgeti : forall i, dget (z_where (Z.of_nat i) 0) (out_trace qo) = dget (z_where (Z.of_nat i) 0) (out_trace o1)).
    { intros i. rewrite Htq. cbn [dget]. destruct (String.eqb_spec (z_where (Z.of_nat i) 0) (z_what 0)) as [Ei|_]; [discriminate|reflexivity]. }
    rewrite (E_ext_out M ML _ _ (fun _ => (/ (encoded T_ o1 * pm dz z) * (video_mass M N fr (positions T_ o1) z * h (positions T_ o1) z))%R)).
    - unfold dec at 1. rewrite (prog_mass M ML) by (exact Hp1 || reflexivity). pose proof (encoded_pos T_ o1). pose proof (pm_pos M dz z). field. lra.
    - intros y Hpo. 
      pose proof (propose_outcome (5 + T_) (dec L N) _ (copts L (loss_is L wmean) (apg_ix L (Z.of_nat T_) 0 "forward") false) None true _ kws s0 _ _ _ Hp Hwst eq_refl Hwq Hout Hpo) as Hr.
      cbn [in_ix copts oid_of dec] in Hr.
      destruct (Hgood _ Hr) as (r & Er' & _). cbn [fst] in Er'. destruct y as [[po|e] s3]; cbn [fst snd] in *; [|discriminate]. rewrite Er' in Hr |- *.
      assert (Hwp : wf_dict (out_trace po)).
      { refine (proj1 (run_returns_wf _ _ _ _ _ _ (proj1 Hp1) _ Hpo)). apply wf_set_cond; [|intros tr [= <-]; exact Hwq].
        eapply run_wf_st; [exact Hout|exact Hwst]. }
      destruct (propose_tail_px _ _ _ _ _ _ _ _ Hwq Hwp Er') as (px & Epx & Ept & _).
      destruct (Hsync r _ Hp Hcalm Hr) as (_ & px' & l & Epx' & Hw). rewrite Epx in Epx'. injection Epx' as <-. cbn zeta in Hw.
      rewrite Ept in Hw. destruct Hw as (_ & Hlw & _ & Hval & El).
      unfold weighted_sample. cbn [fst].
      assert (Ev : forall a, In a (posterior_addresses T_ T_ 0) -> a <> "recon" -> value_at (out_trace r) a = value_at (out_trace qo) a) by exact Hval.
      assert (Epos : map (fun i => value_at (out_trace r) (z_where (Z.of_nat i) (Z.of_nat 0))) (seq 0 T_) = positions T_ o1).
      { apply map_ext_in. intros i Hi. apply in_seq in Hi. rewrite Ev; [unfold value_at; rewrite Hgeti; reflexivity| |discriminate].
        apply (posterior_in N T_ Hpos fr Hfr). left. exists i. split; [lia|]. unfold position_at, current_where. destruct (Z.leb_spec (Z.of_nat i) (Z.of_nat T_)); [reflexivity|lia]. }
      assert (Ez : value_at (out_trace r) (z_what (Z.of_nat 0)) = z).
      { rewrite Ev; [exact (value_at_get _ _ _ Hget0)| |discriminate]. apply (posterior_in N T_ Hpos fr Hfr). right. left. unfold digits_at. rewrite Nat.eqb_refl. reflexivity. }
      rewrite Epos, Ez, Hlw, (detach_id M ML), (lw_sub M ML). unfold Rminus. rewrite exp_plus, exp_Ropp, !total_mass, video_masses.
      assert (Epos' : map (fun i => value_at (out_trace qo) (z_where (Z.of_nat i) (Z.of_nat 0))) (seq 0 T_) = positions T_ o1).
      { apply map_ext. intros i. unfold value_at. change (Z.of_nat 0) with 0%Z. rewrite Hgeti. reflexivity. }
      rewrite Epos'. change (z_what (Z.of_nat 0)) with (z_what 0). rewrite (value_at_get _ _ _ Hget0). cbn [rv_value].
      assert (Eml : masses l = (encoded T_ o1 * pm dz z)%R).
      { rewrite El, map_app, masses_app. f_equal.
        - unfold masses, encoded. rewrite !map_map. f_equal. apply map_ext. intros i. unfold density_at. rewrite Hgeti. reflexivity.
        - unfold masses. cbn [map Rprod fold_right]. unfold density_at. rewrite Hget0. cbn [rv_logp]. unfold pmass. ring. }
      rewrite Eml. ring.
  Qed.
End Initial.
