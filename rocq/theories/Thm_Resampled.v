(** Proof of C59: the Resample step, and the induction over inference programs. *)
From Coq Require Import Lra Psatz.
From Coquelicot Require Import Coquelicot.
From Verif Require Export SpecParticles RunEq Thm_Proper Thm_Particles Thm_Resample Thm_Systematic.
Open Scope nat_scope.

Lemma In_dset {V} a k (x v : V) d : In (a, x) (dset k v d) -> (a = k /\ x = v) \/ In (a, x) d.
Proof.
  induction d as [|[k' v'] d IH]; cbn [dset].
  - intros [[= <- <-]|[]]. left. split; reflexivity.
  - destruct (String.eqb_spec k k') as [->|Hne]; cbn [In]; intros [[= <- <-]|H]; auto.
    destruct (IH H) as [G|G]; auto.
Qed.

(** ** Resample as an equation *)
Section ResampleEq.
  Context {L : lib}.
  Definition resample_tail ix l0 dbg (kws : dict (pyval (T L))) (qo : out L) (s1 : st L) (r : res (trace L * T L)) : res (out L) * st L :=
    match r with
    | Err e => (Err e, s1)
    | Ok (items, lw2) =>
        match out_output qo with
        | VDict c1 =>
            match resample_output c1 (as_trace items) with
            | Err e => (Err e, s1)
            | Ok c2 =>
                match hook s1 (store s1) (out_trace qo) (as_trace items) with
                | Err e => (Err e, s1)
                | Ok d =>
                    (rbind (add_loss default_loss l0 qo
                              (mkOut (as_trace items) lw2 (VDict c2) TyResample (Some (resolve_ix ix (kwarg "ix" VNone kws))) None None None []))
                       (fun o => Ok (add_subs (truthy (kwarg "_debug" (VBool false) kws) || dbg) [("q_out", qo)] o)), set_store d s1)
                end
            end
        | _ => (Err AssertionError, s1)
        end
    end.

  Lemma run_resample_eq oid q ix l0 rs dbg c kws s : wf_dict kws -> clash ["self"; "c"; "fn"] kws = false ->
    teq (run (L := L) (IResample oid q ix l0 rs dbg) c kws s)
        (tbind (run q c (sub_kwargs ix kws) s) (fun x => after x (fun qo s1 =>
         tbind (rs_call rs (out_trace qo) (out_lw qo)
                  (filter (fun kv => check_passable_kwarg (fst kv) (rs_sig rs))
                     [("sample_dims", k_sd kws); ("batch_dim", k_bd kws); ("reparameterized", k_rep kws)]))
           (fun r => Leaf (resample_tail ix l0 dbg kws qo s1 r))))).
  Proof.
    intros Hk Hc. destruct (clash_split L kws Hc) as [Hc1 Hc2].
    pose proof (bind_call_ok kws Hc1) as Hb.
    cbn [run]. rewrite mbind_lift, Hb. cbn zeta. rewrite (sub_kwargs_eq kws _ ix Hb).
    unfold mbind at 1. apply teq_tbind; [apply teq_refl|]. intros [[qo|e] s1]; unfold after; cbn [fst snd]; [|apply teq_refl].
    unfold mbind at 1. eapply teq_trans; [apply teq_assoc|]. apply teq_tbind; [apply teq_refl|]. intros [[items lw2]|e]; cbn [tbind fst snd]; [|apply teq_refl].
    apply teq_eq. unfold resample_tail. destruct (out_output qo) as [| | | | | |c1|]; try reflexivity.
    rewrite mbind_lift. destruct (resample_output c1 (as_trace items)) as [c2|e]; [|reflexivity].
    unfold mbind at 1, resample_update. destruct (hook s1 (store s1) (out_trace qo) (as_trace items)) as [d|e]; cbn [tbind fst snd]; [|reflexivity].
    rewrite mbind_lift. cbn [b_ix b_debug]. destruct (add_loss _ _ _ _); reflexivity.
  Qed.

  Lemma resample_tail_ok ix l0 dbg kws qo s1 r o s2 : resample_tail ix l0 dbg kws qo s1 r = (Ok o, s2) ->
    exists items lw2 c1 c2 d, r = Ok (items, lw2) /\ out_output qo = VDict c1 /\ resample_output c1 (as_trace items) = Ok c2 /\
      s2 = set_store d s1 /\ out_trace o = as_trace items /\ out_lw o = lw2 /\ out_output o = VDict c2.
  Proof.
    unfold resample_tail. destruct r as [[items lw2]|e]; [|discriminate].
    destruct (out_output qo) as [| | | | | |c1|] eqn:Eo; try discriminate.
    destruct (resample_output c1 (as_trace items)) as [c2|e] eqn:Er; [|discriminate].
    destruct (hook s1 (store s1) (out_trace qo) (as_trace items)) as [d|e]; [|discriminate].
    match goal with |- context [add_loss ?a ?b ?c ?d] => destruct (add_loss a b c d) as [r'|e] eqn:Ea end; cbn [rbind]; [|discriminate].
    intros [= <- <-]. apply add_loss_ok in Ea. destruct Ea as (l & _ & ->).
    exists items, lw2, c1, c2, d. match goal with |- context [add_subs ?d ?sb ?x] => destruct (sd_fields L d sb x) as (-> & -> & -> & _) end.
    cbn [with_loss out_trace out_lw out_output]. repeat split; try assumption; reflexivity.
  Qed.

  Lemma rerun_items_resamplable (tr : trace L) : forall acc tr', (forall a r, In (a, r) acc -> rv_resamplable r = true) ->
    rerun_items tr acc = Ok tr' -> forall a r, In (a, r) tr' -> rv_resamplable r = true.
  Proof.
    induction tr as [|[k r] tr IH]; intros acc tr' Ha H; cbn [rerun_items] in H.
    - injection H as <-. exact Ha.
    - destruct (rerun_rv r) as [r'|e] eqn:Er; cbn [rbind] in H; [|discriminate].
      eapply IH; [|exact H]. intros a x Hin. apply In_dset in Hin. destruct Hin as [[-> ->]|Hin]; [|eapply Ha, Hin].
      unfold rerun_rv in Er. destruct (rv_den r); inversion Er; reflexivity.
  Qed.

  Lemma propose_tail_resamplable o p q nr kws (qo po r : out L) : wf_dict (out_trace qo) -> wf_dict (out_trace po) ->
    propose_tail o p q None nr kws qo po = Ok r -> nr = false -> forall a x, In (a, x) (out_trace r) -> rv_resamplable x = true.
  Proof.
    intros Wq Wp H Hn. unfold propose_tail in H. cbn [apply_transf rbind] in H.
    destruct (log_joint _ _ _ _ _) as [lu1|e] eqn:El; cbn [rbind] in H; [|discriminate].
    destruct (marginalize p po) as [[mo mt]|e] eqn:Hm; cbn [rbind fst snd] in H; [|discriminate].
    rewrite Hn in H.
    destruct (rerun_with_detached_values mt) as [tr|e] eqn:Etr; cbn [rbind] in H; [|discriminate].
    destruct (is_tensor L (tadd L (out_lw qo) (tsub L (out_lw po) lu1))); cbn [rbind] in H; [|discriminate].
    rewrite !copytraces_one in H by assumption. cbn [rbind] in H.
    destruct (forward_trace q qo) as [fw|e]; cbn [rbind] in H; [|discriminate].
    match type of H with context [add_loss ?a ?b ?c ?d] => destruct (add_loss a b c d) as [r'|e] eqn:Ea end; cbn [rbind] in H; [|discriminate].
    injection H as <-. apply add_loss_ok in Ea. destruct Ea as (l & _ & ->).
    match goal with |- context [add_subs ?d ?sb ?x] => destruct (sd_fields L d sb x) as (-> & _) end.
    cbn [with_loss out_trace]. eapply rerun_items_resamplable; [|exact Etr]. intros a x [].
  Qed.
  Lemma propose_tail_tensor o p q nr kws (qo po r : out L) : wf_dict (out_trace qo) -> wf_dict (out_trace po) ->
    propose_tail o p q None nr kws qo po = Ok r -> exists x, is_tensor L x = true /\ out_lw r = detach L x.
  Proof.
    intros Wq Wp H. unfold propose_tail in H. cbn [apply_transf rbind] in H.
    destruct (log_joint _ _ _ _ _) as [lu1|e] eqn:El; cbn [rbind] in H; [|discriminate].
    destruct (marginalize p po) as [[mo mt]|e] eqn:Hm; cbn [rbind fst snd] in H; [|discriminate].
    destruct (if nr then Ok mt else _) as [tr|e] eqn:Etr; cbn [rbind] in H; [|discriminate].
    destruct (is_tensor L (tadd L (out_lw qo) (tsub L (out_lw po) lu1))) eqn:Et; cbn [rbind] in H; [|discriminate].
    rewrite !copytraces_one in H by assumption. cbn [rbind] in H.
    destruct (forward_trace q qo) as [fw|e]; cbn [rbind] in H; [|discriminate].
    match type of H with context [add_loss ?a ?b ?c ?d] => destruct (add_loss a b c d) as [r'|e] eqn:Ea end; cbn [rbind] in H; [|discriminate].
    injection H as <-. apply add_loss_ok in Ea. destruct Ea as (l & _ & ->).
    match goal with |- context [add_subs ?d ?sb ?x] => destruct (sd_fields L d sb x) as (_ & -> & _) end.
    cbn [with_loss out_lw]. eexists. split; [exact Et|reflexivity].
  Qed.
End ResampleEq.

(** ** The Resample step, for one batch entry *)
Section Resampled.
  Context {LV LS : lib} (HL : lib_laws LV) (M : measures LS) (ML : measure_laws M) (W : array_view LV) (N B : nat)
          (P : population LV LS) (PL : population_laws W N B P M) (HN : 0 < N) (sp : string -> Sp M).
  Notation EV := (expectation P). Notation poss := (possible W N B).
  Notation ptens := (particles W N B). Notation lps := (log_probs W N B). Notation lws := (log_weights W N B).
  Notation pw := (particle_weight W). Notation goodtr := (goodtr W N B). Notation goodnode := (goodnode W N B).
  Notation viewp := (viewp P). Notation weightlike := (weightlike W N B).

  Definition anc_col (lw : T LV) (b : nat) : list ereal := fiber0 (to_arr W lw) [b].
  Definition anc (lw v : T LV) (b s : nat) : nat := nth s (ancestors_of (anc_col lw b) (offset W b v)) 0.
  Definition aidx (lw v : T LV) : iarr := mkIarr [N; B] (fun idx => anc lw v (nth 1 idx 0) (nth 0 idx 0)).

  Lemma col_length lw b : lws lw -> length (anc_col lw b) = N.
  Proof. intros [_ Hs]. unfold anc_col, fiber0. rewrite map_length, seq_length, Hs. reflexivity. Qed.
  Lemma in_NB s b : In [s; b] (indices [N; B]) <-> s < N /\ b < B.
  Proof.
    rewrite indices_spec. cbn [length]. split.
    - intros [_ H]. split; [apply (H 0); lia|apply (H 1); lia].
    - intros [H1 H2]. split; [reflexivity|]. intros [|[|d]] Hd; cbn; lia.
  Qed.
  Lemma col_entry lw b s : lws lw -> b < B -> s < N -> nth s (anc_col lw b) NInf = Fin (entry W s b lw).
  Proof.
    intros [[_ Hf] Hs] Hb Hs'. unfold anc_col, fiber0, entry. rewrite Hs. cbn [nth].
    rewrite nth_indep with (d' := at_ (to_arr W lw) [0; b]) by (rewrite map_length, seq_length; exact Hs').
    rewrite (map_nth (fun k => at_ (to_arr W lw) [k; b]) (seq 0 N) 0 s), seq_nth by exact Hs'. cbn [Nat.add].
    destruct (Hf [s; b]) as [r Hr]; [rewrite Hs; apply in_NB; split; assumption|]. rewrite Hr. reflexivity.
  Qed.
  Lemma col_alive lw b : lws lw -> b < B -> alive (anc_col lw b).
  Proof.
    intros Hw Hb. exists (entry W 0 b lw). rewrite <- (col_entry lw b 0) by assumption. apply nth_In. rewrite col_length; assumption.
  Qed.
  Lemma anc_lt lw v b s : lws lw -> b < B -> s < N -> drawn W N B DrawRand v -> anc lw v b s < N.
  Proof.
    intros Hw Hb Hs Hv. pose proof (ancestors_range _ (col_alive lw b Hw Hb) _ (Hv b Hb)) as Hr.
    rewrite col_length in Hr by exact Hw. apply Hr. apply nth_In. rewrite ancestors_length, col_length; assumption.
  Qed.

  Lemma systematic_eq tr lw : lws lw ->
    systematic_call W false tr lw [("sample_dims", VInt 0); ("batch_dim", VInt 1)] =
    Draw DrawRand (fun v => Leaf (rbind (resample_nodes W (aidx lw v) tr) (fun tr2 => Ok (tr2, of_arr W (mean_weight (to_arr W lw)))))).
  Proof.
    intros Hw. pose proof (lws_tensor W N B _ Hw) as Ht. destruct Hw as [_ Hs].
    unfold systematic_call. cbn [dget String.eqb Ascii.eqb Bool.eqb is_zero Z.eqb negb]. rewrite Ht. cbn [negb].
    unfold ancestor_indices. rewrite Hs. change (norm_dim (length [N; B]) 1) with (Some 1). cbv iota beta. cbn [nth tbind].
    rewrite (proj2 (Nat.eqb_neq N 0)) by lia. rewrite Nat.eqb_refl. cbn [tbind rbind]. reflexivity.
  Qed.

  Lemma firstn2 {A} (l : list A) x y : firstn 2 l = [x; y] -> exists t, l = x :: y :: t.
  Proof. destruct l as [|a [|c l]]; cbn; try discriminate. intros [= -> ->]. eauto. Qed.
  Lemma pick_facts lw v z x : lws lw -> drawn W N B DrawRand v -> ptens z -> pick W z (aidx lw v) = Ok x ->
    ptens x /\ (lps z -> lps x) /\ forall s b, s < N -> b < B -> part P s b x = part P (anc lw v b s) b z.
  Proof.
    intros Hw Hv [Ht Hz] H. pose proof H as H'. apply pick_ok in H. destruct H as (_ & _ & _ & Ex).
    assert (Hx : ptens x).
    { split; [|rewrite Ex; exact Hz]. unfold pick in H'. rewrite Ht in H'. cbn [negb] in H'.
      destruct (negb _) in H'; [discriminate|]. destruct (negb _) in H'; [discriminate|]. injection H' as <-. apply of_tensor. }
    destruct (firstn2 _ _ _ Hz) as [tsh Etl].
    assert (Hidx : forall i, In i (indices (shape (to_arr W z))) -> exists s b r, i = s :: b :: r /\ s < N /\ b < B).
    { intros i Hi. rewrite Etl in Hi. apply indices_spec in Hi. destruct Hi as [Hl Hd].
      destruct i as [|s [|b r]]; cbn in Hl; try discriminate. exists s, b, r. split; [reflexivity|].
      split; [apply (Hd 0); cbn; lia|apply (Hd 1); cbn; lia]. }
    split; [exact Hx|]. split.
    - intros [_ Hf]. split; [exact Hx|]. rewrite Ex. cbn [shape at_]. intros i Hi.
      destruct (Hidx i Hi) as (s & b & r & -> & Hs & Hb). cbn [aidx ishape length firstn iat nth tl]. apply Hf.
      rewrite Etl in *. apply indices_spec in Hi. apply indices_spec. destruct Hi as [Hl Hd]. split; [exact Hl|].
      intros [|d] Hd'; [cbn; apply anc_lt; assumption|]. apply (Hd (S d) Hd').
    - intros s b Hs Hb. apply (slices _ _ _ _ _ PL); try assumption; [split; assumption|rewrite Ex; reflexivity|apply anc_lt; assumption|].
      intros rest Hi. rewrite Ex. cbn [at_ aidx ishape length firstn iat nth List.tl]. reflexivity.
  Qed.

  Definition unobserved (tr : trace LV) : Prop := forall a r, In (a, r) tr -> is_observed r = false.
  Definition moved (lw v : T LV) (r r' : rv LV) : Prop :=
    forall s b, s < N -> b < B -> part P s b (rv_value r') = part P (anc lw v b s) b (rv_value r) /\
                                  part P s b (rv_logp r') = part P (anc lw v b s) b (rv_logp r).
  Lemma nodes_facts lw v : lws lw -> drawn W N B DrawRand v -> forall tr tr2, goodtr tr -> unobserved tr ->
    resample_nodes W (aidx lw v) tr = Ok tr2 ->
    goodtr tr2 /\ unobserved tr2 /\ Forall2 (fun ar ar' => fst ar' = fst ar /\ moved lw v (snd ar) (snd ar')) tr tr2.
  Proof.
    intros Hw Hv. induction tr as [|[a r] tr IH]; intros tr2 Hg Hu H; cbn [resample_nodes] in H.
    - injection H as <-. split; [intros ? ? []|]. split; [intros ? ? []|constructor].
    - destruct (resample_rv W (aidx lw v) r) as [r'|e] eqn:Er; cbn [rbind] in H; [|discriminate].
      destruct (resample_nodes W (aidx lw v) tr) as [t2|e]; cbn [rbind] in H; [|discriminate]. injection H as <-.
      destruct (IH t2) as (I1 & I2 & I3); [intros c x Hx; apply (Hg c); right; exact Hx|intros c x Hx; apply (Hu c); right; exact Hx|reflexivity|].
      destruct (Hg a r) as (Gv & Gl & Gr); [left; reflexivity|]. pose proof (Hu a r ltac:(left; reflexivity)) as Ho.
      unfold resample_rv in Er. rewrite Gr, Ho in Er. cbn [negb orb] in Er.
      destruct (pick W (rv_value r) (aidx lw v)) as [v'|e] eqn:Ev; cbn [rbind] in Er; [|discriminate].
      destruct (pick W (rv_logp r) (aidx lw v)) as [l'|e] eqn:El; cbn [rbind] in Er; [|discriminate].
      destruct (pick_facts _ _ _ _ Hw Hv Gv Ev) as (V1 & _ & V2). destruct (pick_facts _ _ _ _ Hw Hv (proj1 Gl) El) as (L1 & L2 & L3).
      assert (Hr' : goodnode r' /\ is_observed r' = false /\ moved lw v r r').
      { destruct (rv_den r); inversion Er; subst r'; (split; [split; [exact V1|split; [apply L2, Gl|reflexivity]]|]);
          (split; [exact Ho|]); intros s b Hs Hb; (split; [apply V2|apply L3]; assumption). }
      destruct Hr' as (R1 & R2 & R3). split; [intros c x [[= <- <-]|Hx]; [exact R1|eapply I1, Hx]|].
      split; [intros c x [[= <- <-]|Hx]; [exact R2|eapply I2, Hx]|]. constructor; [split; [reflexivity|exact R3]|exact I3].
  Qed.
  Lemma moved_keys lw v tr tr2 : Forall2 (fun ar ar' => fst ar' = fst ar /\ moved lw v (snd ar) (snd ar')) tr tr2 -> dkeys tr2 = dkeys tr.
  Proof. unfold dkeys. induction 1 as [|[a r] [a' r'] tr tr2 [H1 _] _ IH]; [reflexivity|]. cbn in *. congruence. Qed.
  Lemma moved_view lw v tr tr2 s b : unobserved tr -> unobserved tr2 -> s < N -> b < B ->
    Forall2 (fun ar ar' => fst ar' = fst ar /\ moved lw v (snd ar) (snd ar')) tr tr2 -> viewp s b tr2 = viewp (anc lw v b s) b tr.
  Proof.
    intros Hu Hu2 Hs Hb H. induction H as [|[a r] [a' r'] tr tr2 [H1 H2] _ IH]; [reflexivity|]. cbn [Thm_Particles.viewp map fst snd] in *. subst a'.
    destruct (H2 s b Hs Hb) as [-> ->]. rewrite (Hu a r), (Hu2 a r') by (left; reflexivity). f_equal.
    apply IH; [intros c x Hx; apply (Hu c); right; exact Hx|intros c x Hx; apply (Hu2 c); right; exact Hx].
  Qed.
  Lemma moved_dget lw v tr tr2 a r : Forall2 (fun ar ar' => fst ar' = fst ar /\ moved lw v (snd ar) (snd ar')) tr tr2 ->
    dget a tr = Some r -> exists r', dget a tr2 = Some r' /\ moved lw v r r'.
  Proof.
    induction 1 as [|[c x] [c' x'] tr tr2 [H1 H2] _ IH]; cbn [dget]; [discriminate|]. cbn in H1, H2. subst c'.
    destruct (String.eqb a c); [intros [= <-]; exists x'; split; [reflexivity|exact H2]|exact IH].
  Qed.

  Lemma echo_output (m : model LS) lw v (tr tr2 : trace LV) c1 c2 n s b : echoes m -> wf_dict tr -> s < N -> b < B ->
    produces m n (vmap (part P (anc lw v b s) b) (VDict c1)) -> Permutation n (viewp (anc lw v b s) b tr) ->
    Forall2 (fun ar ar' => fst ar' = fst ar /\ moved lw v (snd ar) (snd ar')) tr tr2 ->
    output_follows tr2 c1 c2 ->
    vmap (part P s b) (VDict c2) = vmap (part P (anc lw v b s) b) (VDict c1).
  Proof.
    intros He Hwf Hs Hb Hp Hperm Hm Hf.
    assert (Hx : execution m (map (fun an : string * (bool * T LS * T LS) => (fst an, snd (fst (snd an)))) n) (vmap (part P (anc lw v b s) b) (VDict c1))).
    { clear - Hp. induction Hp; constructor; assumption. }
    destruct (He _ _ Hx) as (d & Ed & Hd). cbn [vmap] in Ed |- *. injection Ed as <-. f_equal.
    assert (Hkeys : forall k, In k (map fst (map (fun an : string * (bool * T LS * T LS) => (fst an, snd (fst (snd an)))) n)) <-> In k (dkeys tr)).
    { intros k. rewrite map_map. cbn [fst]. rewrite <- (viewp_keys P (anc lw v b s) b tr). split; intros Hk; eapply Permutation_in; try exact Hk; apply Permutation_map; [exact Hperm|apply Permutation_sym, Hperm]. }
    clear Hp Hx He. revert Hd. unfold output_follows in Hf. induction Hf as [|[k x] [k' x'] c1 c2 [E1 E2] _ IH]; intros Hd; [reflexivity|].
    cbn [map fst snd] in *. subst k'. f_equal; [|apply IH; intros k0 v0 H0; apply Hd; right; exact H0].
    f_equal. destruct (Hd k (vmap (part P (anc lw v b s) b) x) (or_introl eq_refl)) as [(y & Hy & Ey)|[Hk Hn]].
    - assert (Hin : In k (dkeys tr)) by (apply Hkeys; apply in_map_iff; exists (k, y); split; [reflexivity|exact Hy]).
      apply In_dkeys in Hin. destruct Hin as [r Hr]. destruct (moved_dget _ _ _ _ _ _ Hm Hr) as (r' & Hr' & Hmv).
      rewrite E2, Hr', Ey. cbn [vmap]. f_equal. destruct (Hmv s b Hs Hb) as [-> _].
      apply in_map_iff in Hy. destruct Hy as ([k1 [[ob y1] l1]] & E & Hin). cbn in E. injection E as -> ->.
      apply (Permutation_in _ Hperm) in Hin. apply in_map_iff in Hin. destruct Hin as ([k2 r2] & E & Hin). cbn in E. injection E as -> _ <- _.
      apply In_dget in Hin; [|exact Hwf]. rewrite Hr in Hin. injection Hin as <-. reflexivity.
    - assert (Ek : dget k tr2 = None).
      { apply dget_None. rewrite (moved_keys _ _ _ _ Hm). intros Hin. apply Hk, Hkeys, Hin. }
      rewrite E2, Ek. apply vmap_nt. eapply vmap_nt_inv. exact Hn.
  Qed.

  Lemma mean_facts lw : lws lw -> lws (of_arr W (mean_weight (to_arr W lw))) /\
    forall s b, s < N -> b < B -> exp (entry W s b (of_arr W (mean_weight (to_arr W lw)))) = Z_hat (anc_col lw b).
  Proof.
    intros Hw. set (x := of_arr W (mean_weight (to_arr W lw))).
    assert (Ex : to_arr W x = mean_weight (to_arr W lw)) by apply to_of.
    assert (Hsh : shape (to_arr W x) = [N; B]) by (rewrite Ex; apply Hw).
    assert (Hat : forall s b, s < N -> b < B -> at_ (to_arr W x) [s; b] = Fin (ln (Z_hat (anc_col lw b)))).
    { intros s b Hs Hb. rewrite Ex. cbn [mean_weight at_ tl]. fold (anc_col lw b).
      replace (nth 0 (shape (to_arr W lw)) 0) with (length (anc_col lw b)).
      2:{ rewrite col_length by exact Hw. rewrite (proj2 Hw). reflexivity. }
      rewrite logmean_Z_hat. unfold log_Z_hat, elog. destruct (Rlt_dec 0 (Z_hat (anc_col lw b))) as [_|H]; [reflexivity|].
      exfalso. apply H, Z_hat_pos, col_alive; assumption. }
    split.
    - split; [|exact Hsh]. split; [split; [apply of_tensor|rewrite Hsh; reflexivity]|].
      rewrite Hsh. intros i Hi. destruct i as [|s [|b [|? ?]]]; try (apply indices_spec in Hi; destruct Hi as [Hi _]; discriminate).
      apply in_NB in Hi. eexists. apply Hat; apply Hi.
    - intros s b Hs Hb. unfold entry. rewrite Hat by assumption. cbn [fin]. apply exp_ln, Z_hat_pos, col_alive; assumption.
  Qed.

  Lemma map_nth_seq (l : list nat) : map (fun i => nth i l 0) (seq 0 (length l)) = l.
  Proof.
    apply nth_ext with (d := 0) (d' := 0); [rewrite map_length, seq_length; reflexivity|].
    intros i Hi. rewrite map_length, seq_length in Hi. 
    rewrite nth_indep with (d' := nth 0 l 0) by (rewrite map_length, seq_length; exact Hi).
    rewrite (map_nth (fun i => nth i l 0) (seq 0 (length l)) 0 i), seq_nth by exact Hi. reflexivity.
  Qed.

  Lemma resample_average (f : nat -> R) lw b : lws lw -> b < B ->
    mean_offset P (fun v => (Z_hat (anc_col lw b) * (rsum (map (fun s => f (anc lw v b s)) (seq 0 N)) / INR N))%R) =
    (rsum (map (fun s => exp (entry W s b lw) * f s) (seq 0 N)) / INR N)%R.
  Proof.
    intros Hw Hb. set (Z := Z_hat (anc_col lw b)).
    assert (HZ : (0 < Z)%R) by (apply Z_hat_pos, col_alive; assumption).
    assert (HNR : (0 < INR N)%R) by (apply lt_0_INR; lia).
    set (g := fun u => (Z * (rsum (map f (ancestors_of (anc_col lw b) u)) / INR N))%R).
    transitivity (mean_offset P (fun v => g (offset W b v))).
    - apply (offset_ext _ _ _ _ _ PL). intros v _. unfold g. do 3 f_equal.
      rewrite <- (map_nth_seq (ancestors_of (anc_col lw b) (offset W b v))) at 1.
      rewrite ancestors_length, col_length, map_map by exact Hw. reflexivity.
    - pose proof (average_unbiased (anc_col lw b) f (col_alive lw b Hw Hb)) as HI. rewrite col_length in HI by exact Hw.
      apply (is_RInt_scal (V := R_NormedModule) _ _ _ Z) in HI.
      rewrite (offset_uniform _ _ _ _ _ PL b g _ Hb HI). unfold scal; cbn; unfold mult; cbn.
      unfold Rdiv at 1. rewrite (Rmult_comm (rsum (map (fun s => (exp (entry W s b lw) * f s)%R) (seq 0 N)))).
      rewrite <- !rsum_scale, !map_map. apply rsum_ext. intros i Hi. apply in_seq in Hi.
      assert (Es : nth i (softmax (anc_col lw b)) 0%R = (exp (entry W i b lw) / rsum (map eexp (anc_col lw b)))%R).
      { unfold softmax. rewrite nth_indep with (d' := ((fun x => (eexp x / rsum (map eexp (anc_col lw b)))%R) NInf)) by (rewrite map_length, col_length; [lia|exact Hw]).
        rewrite (map_nth (fun x => (eexp x / rsum (map eexp (anc_col lw b)))%R)), col_entry by (assumption || lia). reflexivity. }
      rewrite Es. unfold Z, Z_hat. rewrite col_length by exact Hw.
      assert (0 < rsum (map eexp (anc_col lw b)))%R by (apply alive_pos, col_alive; assumption). field. lra.
  Qed.

  (** ** The induction *)
  Section Main.
    Variables (b : nat) (Hb : b < B).
    Notation vp s := (viewp s b). Notation pt s := (part P s b).

    Definition avg (F : nodes -> pyval (T LS) -> R) : res (out LV) * st LV -> R :=
      okP (fun o => (rsum (map (fun s => exp (pw s b (out_lw o)) * F (vp s (out_trace o)) (vmap (pt s) (out_output o))) (seq 0 N)) / INR N)%R).
    Lemma avg_wtp F x : avg F x = (/ INR N * rsum (map (fun s => wtp W P s b F x) (seq 0 N)))%R.
    Proof.
      unfold avg, wtp, okP. destruct (fst x); [unfold Rdiv; ring|]. rewrite rsum_const. ring.
    Qed.
    Lemma NR : (INR N <> 0)%R.
    Proof. apply not_0_INR. lia. Qed.
    Lemma EV_avg (t : stree LV (res (out LV) * st LV)) F : norand W N B t ->
      EV t (avg F) = (/ INR N * rsum (map (fun s => EV t (wtp W P s b F)) (seq 0 N)))%R.
    Proof.
      intros Hn. rewrite (EV_all M W N B P PL t _ _ (avg_wtp F)), (EV_scale M W N B P PL) by exact Hn. f_equal.
      apply (EV_rsum M W N B P PL _ (fun s => wtp W P s b F)). exact Hn.
    Qed.
    Lemma avg_const (x : R) : (/ INR N * rsum (map (fun _ : nat => x) (seq 0 N)))%R = x.
    Proof. rewrite rsum_const, seq_length. field. apply NR. Qed.

    Lemma parts_nt f (kws : dict (pyval (T LV))) : nt_kws kws -> kmap (part P 0 0) kws = kmap f kws.
    Proof. apply kmap_nt. Qed.
    Lemma smc_pure t : forall c kws, smc M sp t c kws -> pure M sp (target t c kws).
    Proof.
      induction t as [oid sg m|oid q IHq ix l0 rs dbg|oid p IHp f IHf o|oid q2 IH2 q1 IH1 o|oid p IHp q IHq o tf nr];
        intros c kws H; try (destruct H; fail).
      - exact H.
      - destruct H as (H & _ & _). apply IHq, H.
      - destruct q2 as [oid2 sg2 m2| | | |]; try (destruct H; fail). destruct H as [H1 H2].
        cbn [target]. apply pure_mseq; [apply IH1, H1|]. intros o1 Ho. apply H2, Ho.
      - destruct H as (_ & _ & C & _ & Hok & _). cbn [target].
        destruct p as [pid sg m|pid q0 ix l0 rs dbg|pid p f po|pid q2 q1 po|pid p q0 po tf0 nr0]; try (destruct Hok; fail).
        + exact Hok.
        + destruct f as [fid sg m| | | |]; try (destruct Hok; fail). destruct Hok as (_ & _ & Hp & _). eapply target_pure, Hp.
    Qed.

    Definition result_ok (m1 : model LS) (o : out LV) : Prop :=
      wf_dict (out_trace o) /\ goodtr (out_trace o) /\ weightlike (out_lw o) /\ all_tensors ptens (out_output o) /\
      forall s, s < N -> exists n, Permutation n (vp s (out_trace o)) /\ produces m1 n (vmap (pt s) (out_output o)).

    (** Resample *)
    Lemma resample_step (m1 : model LS) (qo : out LV) ix l0 dbg kws s1 : (forall a, ~ observes m1 a) -> echoes m1 -> result_ok m1 qo -> clean s1 -> dims kws ->
      let t := tbind (rs_call (systematic W false) (out_trace qo) (out_lw qo)
                  (filter (fun kv => check_passable_kwarg (fst kv) (rs_sig (systematic W false)))
                     [("sample_dims", k_sd kws); ("batch_dim", k_bd kws); ("reparameterized", k_rep kws)]))
           (fun r => Leaf (resample_tail ix l0 dbg kws qo s1 r)) in
      quietP W N B t ->
      (forall F, EV t (avg F) = avg F (Ok qo, s1)) /\
      (forall r s', poss t (Ok r, s') -> result_ok m1 r /\ clean s').
    Proof.
      intros Hno He (Wq & Gq & Lq & Aq & Nq) Hc [Hsd Hbd] t Hq. unfold t in *. clear t.
      rewrite passable_systematic in *. cbn [rs_call systematic] in *. rewrite Hsd, Hbd in *.
      assert (Hw : lws (out_lw qo)).
      { destruct Lq as [E|Hw]; [exfalso|exact Hw]. rewrite E in Hq. 
        unfold systematic_call in Hq. cbn [dget String.eqb Ascii.eqb Bool.eqb is_zero Z.eqb negb] in Hq. rewrite (float_zero _ _ _ _ _ PL) in Hq. cbn [negb tbind] in Hq.
        destruct (Hq (Err AttributeError, s1)) as [x Hx]; [constructor|discriminate]. }
      assert (Hun : unobserved (out_trace qo)).
      { intros a r Hin. destruct (is_observed r) eqn:Eo; [|reflexivity]. exfalso. destruct (Nq 0 HN) as (n & Hp & Hd).
        assert (Hi : In (a, (true, pt 0 (rv_value r), pt 0 (rv_logp r))) (vp 0 (out_trace qo))).
        { apply in_map_iff. exists (a, r). cbn. rewrite Eo. auto. }
        apply (Permutation_in _ (Permutation_sym Hp)) in Hi. apply (Hno a). clear - Hd Hi.
        induction Hd as [o|a' d rep k v n o Hd IH|a' d v p rep k n o Hd IH]; cbn in Hi.
        - destruct Hi.
        - destruct Hi as [Hi|Hi]; [discriminate|]. eapply obs_next. apply IH, Hi.
        - destruct Hi as [Hi|Hi]; [injection Hi as <-; constructor|]. eapply obs_next. apply IH, Hi. }
      rewrite systematic_eq in * by exact Hw. cbn [tbind] in *.
      (* for every offset *)
      assert (Hstep : forall v, drawn W N B DrawRand v ->
        exists r s', resample_tail ix l0 dbg kws qo s1 (rbind (resample_nodes W (aidx (out_lw qo) v) (out_trace qo))
            (fun tr2 => Ok (tr2, of_arr W (mean_weight (to_arr W (out_lw qo)))))) = (Ok r, s') /\
          clean s' /\ wf_dict (out_trace r) /\ goodtr (out_trace r) /\ all_tensors ptens (out_output r) /\
          out_lw r = of_arr W (mean_weight (to_arr W (out_lw qo))) /\
          forall s, s < N -> vp s (out_trace r) = vp (anc (out_lw qo) v b s) (out_trace qo) /\
            vmap (pt s) (out_output r) = vmap (pt (anc (out_lw qo) v b s)) (out_output qo)).
      { intros v Hv. set (x := resample_tail _ _ _ _ _ _ _).
        destruct (Hq x) as [r Hr]; [eapply poss_draw; [exact Hv|constructor]|].
        destruct x as [y s'] eqn:Ex. cbn [fst] in Hr. subst y. exists r, s'. split; [reflexivity|].
        apply resample_tail_ok in Ex. destruct Ex as (items & lw2 & c1 & c2 & d & Er & Eo & Ec & -> & Et & El & Eo2).
        destruct (resample_nodes W (aidx (out_lw qo) v) (out_trace qo)) as [tr2|e] eqn:En; cbn [rbind] in Er; [|discriminate]. injection Er as -> <-.
        destruct (nodes_facts _ _ Hw Hv _ _ Gq Hun En) as (G2 & U2 & F2).
        assert (W2 : wf_dict items) by (unfold wf_dict; rewrite (moved_keys _ _ _ _ F2); exact Wq).
        rewrite as_trace_id in * by exact W2. apply resample_output_ok in Ec. destruct Ec as [Hf _].
        split; [intros i; apply Hc|]. rewrite Et, El, Eo2. split; [exact W2|]. split; [exact G2|].
        split.
        { rewrite Eo in Aq. apply all_tensors_dict. pose proof (proj1 (all_tensors_dict _ _) Aq) as Aq'. clear Aq. rename Aq' into Aq. unfold output_follows in Hf.
          clear - Hf G2 Aq. induction Hf as [|[k x] [k' x'] c1 c2 [E1 E2] _ IH]; intros k0 v0 Hin; [destruct Hin|]. cbn [fst snd] in *. subst k'.
          destruct Hin as [[= <- <-]|Hin]; [|eapply IH; [|exact Hin]; intros k1 v1 H1; apply (Aq k1); right; exact H1].
          rewrite E2. destruct (dget k items) as [r|] eqn:Ek; [|apply (Aq k); left; reflexivity].
          apply dget_In in Ek. apply (G2 _ _ Ek). }
        split; [reflexivity|]. intros s Hs. split; [apply moved_view; assumption|]. rewrite Eo.
        destruct (Nq (anc (out_lw qo) v b s)) as (n & Hp & Hd); [apply anc_lt; assumption|]. rewrite Eo in Hd.
        exact (echo_output m1 (out_lw qo) v (out_trace qo) items c1 c2 n s b He Wq Hs Hb Hd Hp F2 Hf). }
      split.
      - intros F. cbn [expectation].
        set (f := fun s => F (vp s (out_trace qo)) (vmap (pt s) (out_output qo))).
        transitivity (mean_offset P (fun v => (Z_hat (anc_col (out_lw qo) b) * (rsum (map (fun s => f (anc (out_lw qo) v b s)) (seq 0 N)) / INR N))%R)).
        + apply (offset_ext _ _ _ _ _ PL). intros v Hv. destruct (Hstep v Hv) as (r & s' & E & _ & _ & _ & _ & El & Hs). rewrite E.
          unfold avg, okP. cbn [fst]. unfold Rdiv. rewrite <- Rmult_assoc. f_equal. rewrite <- rsum_scale, map_map. apply rsum_ext.
          intros s Hin. apply in_seq in Hin. destruct (Hs s) as [-> ->]; [lia|]. unfold f. f_equal.
          destruct (mean_facts _ Hw) as [Lw Ew]. rewrite El, (pw_lws W N B) by exact Lw. apply Ew; [lia|exact Hb].
        + rewrite resample_average by assumption. unfold avg, okP. cbn [fst]. do 2 f_equal. apply map_ext. intros s.
          rewrite (pw_lws W N B) by exact Hw. reflexivity.
      - intros r s' Hr. apply poss_draw_inv in Hr. destruct Hr as (v & Hv & Hr). apply poss_leaf_inv in Hr.
        destruct (Hstep v Hv) as (r' & s'' & E & C' & W' & G' & A' & El & Hs). rewrite E in Hr. injection Hr as -> ->.
        split; [|exact C']. split; [exact W'|]. split; [exact G'|]. split; [right; rewrite El; apply mean_facts, Hw|]. split; [exact A'|].
        intros s Hs'. destruct (Hs s Hs') as [-> ->]. apply Nq. apply anc_lt; assumption.
    Qed.

    Lemma detach_outputP (v : pyval (T LV)) : detach_output v = v.
    Proof.
      destruct v as [| | | |t|l|d|n]; try reflexivity; cbn [detach_output].
      - rewrite (no_gradient _ _ _ _ _ PL). reflexivity.
      - f_equal. induction d as [|[k v] d IH]; [reflexivity|]. cbn [map fst snd]. rewrite IH. f_equal. f_equal.
        destruct v; try reflexivity. cbn. rewrite (no_gradient _ _ _ _ _ PL). reflexivity.
    Qed.
    Lemma goodtr_rerun (tr tr' : trace LV) : sound tr -> goodtr tr -> detached_rerun tr tr' ->
      (forall a r, In (a, r) tr' -> rv_resamplable r = true) -> goodtr tr'.
    Proof.
      intros Hsd Hg H. unfold detached_rerun in H. induction H as [|[a r] [a' r'] tr tr' (E1 & E2 & E3 & E4 & E5) HF IH]; intros Hr c x Hin; [destruct Hin|].
      destruct Hin as [Hin|Hin].
      - injection Hin as <- <-. cbn [fst snd] in *. destruct (Hsd a r) as (d & Ed & El); [left; reflexivity|]. rewrite Ed in E5. destruct E5 as [E5 _].
        rewrite (no_gradient _ _ _ _ _ PL) in *. destruct (Hg a r) as (G1 & G2 & _); [left; reflexivity|].
        split; [rewrite E2 || rewrite E3; assumption|]. split; [|eapply Hr; left; reflexivity]. rewrite E5. rewrite <- El. exact G2.
      - eapply IH; [| | |exact Hin]; [intros y z Hy; apply (Hsd y z); right; exact Hy|intros y z Hy; apply (Hg y z); right; exact Hy|intros y z Hy; apply (Hr y z); right; exact Hy].
    Qed.

    Theorem population_weighted t t1 : copies W N B P t t1 -> forall c c1 kws st, all_tensors ptens c -> (forall s, s < N -> vmap (pt s) c = c1) ->
      nt_kws kws -> smc M sp t1 c1 (kmap (part P 0 0) kws) -> wf_dict kws -> clean st -> clash ["self"; "c"; "fn"] kws = false -> dims kws ->
      quietP W N B (run t c kws st) ->
      (forall F, perm_inv F -> EV (run t c kws st) (avg F) = WC M none (target t1 c1 (kmap (part P 0 0) kws)) F) /\
      (forall o st', poss (run t c kws st) (Ok o, st') -> result_ok (target t1 c1 (kmap (part P 0 0) kws)) o /\ clean st').
    Proof.
      intros Hcp. induction Hcp as [oid sg m m1 Hm|oid p p1 f f1 o o1 Hp IHp Hf IHf Hnt Eix|oid q2 q21 q1 q11 o o1 H2 IH2 H1 IH1 Hnt Eix
                     |oid p p1 q q1 o o1 nr Hp IHp Hq IHq Hnt Eix|oid q q1 ix ix1 l0 l01 rs1 dbg dbg1 Hq IHq Hnt Eix];
        intros c c1 kws st Hca Hc1 Hkn Hsmc Hk Hc Hcl Hdm Hqu; try (destruct Hsmc; fail).
      - (* Program *)
        cbn [smc target] in *. pose proof (clean_wf st Hc) as Hst. rewrite prog_kwargs_kmap.
        assert (Hck : forall s, s < N -> copies_model W N B P s b (m c (prog_kwargs sg kws)) (m1 c1 (kmap (part P 0 0) (prog_kwargs sg kws)))).
        { intros s Hs. rewrite <- prog_kwargs_kmap, (parts_nt (pt s) kws Hkn), prog_kwargs_kmap, <- (Hc1 s Hs). apply Hm; assumption. }
        assert (Gc : goodcond W N B (get_cond oid st)) by (rewrite (Hc oid); intros ct [=]).
        split.
        + intros F _. rewrite EV_avg by apply norand_prog. transitivity (/ INR N * rsum (map (fun _ : nat => WC M none (m1 c1 (kmap (part P 0 0) (prog_kwargs sg kws))) F) (seq 0 N)))%R; [|apply avg_const].
          f_equal. apply rsum_ext. intros s Hin. apply in_seq in Hin. assert (Hs : s < N) by lia.
          rewrite (progP_E HL M ML W N B P PL s b Hs Hb oid sg m c kws st _ F Hst (proj1 Hdm) (proj2 Hdm) (Hck s Hs) Gc); [|rewrite (Hc oid); cbn; congruence|exact Hqu].
          rewrite (Hc oid). reflexivity.
        + intros r s' Hr. split.
          2:{ intros i. apply poss_outcome, run_scoped in Hr. apply Hr, Hc. }
          assert (Hf : forall s (Hs : s < N), _) by (intros s Hs; exact (progP_out HL M W N B P PL s b Hs Hb oid sg m c kws st _ r s' Hst (proj1 Hdm) (proj2 Hdm) (Hck s Hs) Gc Hr)).
          destruct (Hf 0 HN) as (_ & W0 & G0 & L0 & A0 & _). split; [exact W0|]. split; [exact G0|]. split; [exact L0|]. split; [exact A0|].
          intros s Hs. destruct (Hf s Hs) as (_ & _ & _ & _ & _ & _ & D). eexists. split; [apply Permutation_refl|exact D].
      - (* Compose *)
        destruct q21 as [oid2 sg m1| | | |]; try (destruct Hsmc; fail). destruct Hsmc as [Hw1 Hw2].
        assert (Em : exists m, q2 = IProg oid2 sg m) by (inversion H2; eexists; reflexivity). destruct Em as [m ->].
        inversion H2 as [oid' sg' m' m1' Hcm| | | |]; subst oid' sg' m' m1'. clear IH2.
        pose proof (wf_sub_kwargs (in_ix o) kws Hk) as Hk'. pose proof (clash_sub3 (in_ix o) kws Hcl) as Hcl'.
        pose proof (nt_sub (in_ix o) kws Hnt Hkn) as Hkn'.
        assert (Esub : sub_kwargs (in_ix o1) (kmap (part P 0 0) kws) = kmap (part P 0 0) (sub_kwargs (in_ix o) kws)) by (apply sub_part; assumption).
        cbn [target]. rewrite Esub in *. set (kws' := sub_kwargs (in_ix o) kws) in *.
        assert (Hdm' : dims kws') by exact (dims_sub _ _ Hdm).
        pose proof (run_compose_eq oid (IProg oid2 sg m) q1 o c kws st Hk Hcl) as Heq. fold kws' in Heq.
        pose proof (teq_quietP _ _ _ _ _ Heq Hqu) as Hq'. destruct (quietP_after _ _ _ _ _ Hq') as [Hq1 Hqr].
        destruct (IH1 c c1 kws' st Hca Hc1 Hkn' Hw1 Hk' Hc Hcl' Hdm' Hq1) as [HE1 Ho1].
        set (tq := target q11 c1 (kmap (part P 0 0) kws')) in *.
        assert (Hstep : forall x1 s1, poss (run q1 c kws' st) (Ok x1, s1) ->
          result_ok tq x1 /\ clean s1 /\
          (forall s, s < N -> copies_model W N B P s b (m (out_output x1) (prog_kwargs sg kws')) (m1 (vmap (pt s) (out_output x1)) (kmap (part P 0 0) (prog_kwargs sg kws')))) /\
          goodcond W N B (get_cond oid2 s1) /\
          quietP W N B (run (IProg oid2 sg m) (out_output x1) kws' s1) /\
          forall x2 s2, poss (run (IProg oid2 sg m) (out_output x1) kws' s1) (Ok x2, s2) ->
            clean s2 /\ wf_dict (out_trace x2) /\ goodtr (out_trace x2) /\ weightlike (out_lw x2) /\ all_tensors ptens (out_output x2) /\
            (forall s, s < N -> produces (m1 (vmap (pt s) (out_output x1)) (kmap (part P 0 0) (prog_kwargs sg kws'))) (vp s (out_trace x2)) (vmap (pt s) (out_output x2))) /\
            exists r, compose_tail o kws x1 x2 = Ok r).
        { intros x1 s1 Hx1. destruct (Ho1 _ _ Hx1) as (R1 & C1). split; [exact R1|]. split; [exact C1|].
          destruct R1 as (W1 & G1 & L1 & A1 & N1).
          assert (Hck : forall s, s < N -> copies_model W N B P s b (m (out_output x1) (prog_kwargs sg kws')) (m1 (vmap (pt s) (out_output x1)) (kmap (part P 0 0) (prog_kwargs sg kws')))).
          { intros s Hs. rewrite <- prog_kwargs_kmap, (parts_nt (pt s) kws' Hkn'), prog_kwargs_kmap. apply Hcm; assumption. }
          split; [exact Hck|]. assert (Gc : goodcond W N B (get_cond oid2 s1)) by (rewrite (C1 oid2); intros ct [=]). split; [exact Gc|].
          destruct (quietP_after _ _ _ _ _ (Hqr _ _ Hx1)) as [Hq2 Hqt]. split; [exact Hq2|].
          intros x2 s2 Hx2.
          assert (Hf : forall s (Hs : s < N), _) by (intros s Hs; exact (progP_out HL M W N B P PL s b Hs Hb oid2 sg m (out_output x1) kws' s1 _ x2 s2 (clean_wf _ C1) (proj1 Hdm') (proj2 Hdm') (Hck s Hs) Gc Hx2)).
          split. { intros i. apply poss_outcome, run_scoped in Hx2. apply Hx2, C1. }
          destruct (Hf 0 HN) as (_ & W2 & G2 & L2 & A2 & _). do 4 (split; [assumption|]). split; [intros s Hs; apply (Hf s Hs)|].
          destruct (Hqt _ _ Hx2 (compose_tail o kws x1 x2, s2)) as [r Hr]; [constructor|]. exists r. exact Hr. }
        split.
        + intros F HF. rewrite (EV_teq M W N B P PL _ _ _ Heq), (EV_after M W N B P PL) by exact Hq1. rewrite WC_mseq by exact ML.
          rewrite <- (HE1 (fun n1 r1 => WC M none (m1 r1 (prog_kwargs sg (kmap (part P 0 0) kws'))) (fun n2 r2 => F (n1 ++ n2) r2))).
          2:{ intros n n' r1 Hpm. apply (WC_ext M ML). intros n2 r2. apply HF, Permutation_app_tail, Hpm. }
          apply (EV_ext M W N B P PL). intros [[x1|e] s1] Hx1; [|reflexivity]. cbn [fst snd].
          destruct (Hstep _ _ Hx1) as ((W1 & G1 & L1 & A1 & N1) & C1 & Hck & Gc & Hq2 & Hx2). rewrite (EV_after M W N B P PL) by exact Hq2.
          transitivity (EV (run (IProg oid2 sg m) (out_output x1) kws' s1) (fun x => / INR N * rsum (map (fun s =>
             (fun x => exp (pw s b (out_lw x1)) * wtp W P s b (fun n2 r2 => F (vp s (out_trace x1) ++ n2) r2) x) x) (seq 0 N)))%R).
          * apply (EV_ext M W N B P PL). intros [[x2|e] s2] H2'.
            2:{ destruct (Hq2 _ H2'). discriminate. }
            destruct (Hx2 _ _ H2') as (C2 & W2 & G2 & L2 & A2 & D2 & r & Hr). cbn [fst snd expectation]. rewrite Hr.
            destruct (compose_tail_facts _ _ _ _ _ W1 W2 Hr) as (Et & Hd & Elw & Eo).
            unfold avg, wtp, okP. cbn [fst]. unfold Rdiv. rewrite Rmult_comm. f_equal. apply rsum_ext. intros s Hin. apply in_seq in Hin.
            rewrite Et, Elw, Eo, viewp_app. rewrite (proj2 (wl_add HL M W N B P PL _ _ L1 L2) s b) by (assumption || lia). rewrite exp_plus, Rmult_assoc. do 2 f_equal.
            apply HF, Permutation_app_comm.
          * rewrite (EV_scale M W N B P PL) by apply norand_prog.
            rewrite (EV_rsum M W N B P PL _ (fun s x => (exp (pw s b (out_lw x1)) * wtp W P s b (fun n2 r2 => F (vp s (out_trace x1) ++ n2) r2) x)%R)) by apply norand_prog.
            unfold avg, okP. cbn [fst]. unfold Rdiv. rewrite Rmult_comm. f_equal. apply rsum_ext. intros s Hin. apply in_seq in Hin. assert (Hs : s < N) by lia.
            rewrite (EV_scale M W N B P PL) by apply norand_prog. f_equal.
            rewrite (progP_E HL M ML W N B P PL s b Hs Hb oid2 sg m (out_output x1) kws' s1 _ _ (clean_wf _ C1) (proj1 Hdm') (proj2 Hdm') (Hck s Hs) Gc); [|rewrite (C1 oid2); cbn; congruence|exact Hq2].
            rewrite (C1 oid2). cbn [target]. rewrite prog_kwargs_kmap. reflexivity.
        + intros r s' Hr. apply (poss_teq _ _ _ _ _ _ Heq) in Hr. apply poss_tbind in Hr. destruct Hr as ([[x1|e] s1] & Hx1 & Hr); unfold after in Hr; cbn [fst snd] in Hr.
          2:{ apply poss_leaf_inv in Hr. discriminate. }
          destruct (Hstep _ _ Hx1) as ((W1 & G1 & L1 & A1 & N1) & C1 & Hck & Gc & Hq2 & Hx2).
          apply poss_tbind in Hr. destruct Hr as ([[x2|e] s2] & H2' & Hr); unfold after in Hr; cbn [fst snd] in Hr; apply poss_leaf_inv in Hr; [|discriminate].
          destruct (Hx2 _ _ H2') as (C2 & W2 & G2 & L2 & A2 & D2 & r' & Hr'). rewrite Hr' in Hr. injection Hr as -> ->.
          destruct (compose_tail_facts _ _ _ _ _ W1 W2 Hr') as (Et & Hd & Elw & Eo).
          split; [|exact C2]. unfold result_ok. rewrite Et, Eo, Elw. split; [apply wf_app; assumption|]. split; [apply goodtr_app; assumption|].
          split; [apply (wl_add HL M W N B P PL); assumption|]. split; [exact A2|]. intros s Hs. destruct (N1 s Hs) as (n1 & P1 & D1).
          exists (n1 ++ vp s (out_trace x2)). split.
          * rewrite viewp_app. eapply Permutation_trans; [apply Permutation_app_comm|]. apply Permutation_app_head, P1.
          * eapply produces_seq; [exact D1|]. cbn [target]. rewrite prog_kwargs_kmap. apply D2, Hs.

      - (* Propose *)
        destruct Hsmc as (_ & Hwq & C & HnC & Hok & Haq & Hap & Hsh).
        pose proof (wf_sub_kwargs (in_ix o) kws Hk) as Hk'. pose proof (clash_sub3 (in_ix o) kws Hcl) as Hcl'.
        pose proof (nt_sub (in_ix o) kws Hnt Hkn) as Hkn'.
        assert (Esub : sub_kwargs (in_ix o1) (kmap (part P 0 0) kws) = kmap (part P 0 0) (sub_kwargs (in_ix o) kws)) by (apply sub_part; assumption).
        assert (Htarget : target (IPropose oid p1 q1 o1 None nr) c1 (kmap (part P 0 0) kws) = kept p1 c1 (sub_kwargs (in_ix o1) (kmap (part P 0 0) kws))).
        { cbn [target]. destruct p1; reflexivity. }
        rewrite Htarget. clear Htarget. rewrite Esub in *. set (kws' := sub_kwargs (in_ix o) kws) in *.
        assert (Hdm' : dims kws') by exact (dims_sub _ _ Hdm).
        pose proof (smc_pure _ _ _ Hwq) as Hpq.
        assert (Hcp : is_compose p = false) by (inversion Hp; subst; try reflexivity; destruct Hok).
        pose proof (run_propose_eq oid p q o None nr c kws st Hk (clean_wf st Hc) Hcl Hcp) as Heq. fold kws' in Heq.
        pose proof (teq_quietP _ _ _ _ _ Heq Hqu) as Hq'. destruct (quietP_after _ _ _ _ _ Hq') as [Hqq Hqr].
        destruct (IHq c c1 kws' st Hca Hc1 Hkn' Hwq Hk' Hc Hcl' Hdm' Hqq) as [HEq Hoq].
        assert (Ek : forall s, kmap (part P 0 0) kws' = kmap (pt s) kws') by (intros s; apply parts_nt, Hkn').
        set (tp := target p1 c1 (kmap (part P 0 0) kws')) in *.
        set (tq := target q1 c1 (kmap (part P 0 0) kws')) in *.
        assert (Hok' : forall s, s < N -> target_ok M sp C p1 (vmap (pt s) c) (kmap (pt s) kws')) by (intros s Hs; rewrite (Hc1 s Hs), <- Ek; exact Hok).
        assert (Etp : forall s, s < N -> target p1 (vmap (pt s) c) (kmap (pt s) kws') = tp) by (intros s Hs; rewrite (Hc1 s Hs), <- Ek; reflexivity).
        assert (Hstep : forall qo s1, poss (run q c kws' st) (Ok qo, s1) ->
          let s1' := set_cond (oid_of p) (Some (out_trace qo)) s1 in
          wf_dict (out_trace qo) /\ goodtr (out_trace qo) /\ weightlike (out_lw qo) /\ clean s1 /\ wf_st s1' /\
          suppliesP W N B C (out_trace qo) tp /\
          (forall s a, s < N -> samples tp a -> valp P s b (Some (out_trace qo)) a = shared C (vp s (out_trace qo)) a) /\
          quietP W N B (run p c kws' s1') /\ norand W N B (run p c kws' s1') /\
          forall po s2, poss (run p c kws' s1') (Ok po, s2) ->
            wf_dict (out_trace po) /\ clean (set_cond (oid_of p) None s2) /\
            exists r, propose_tail o p q None nr kws qo po = Ok r /\
              result_ok (kept p1 c1 (kmap (part P 0 0) kws')) r /\
              forall s F, s < N -> wtp W P s b F (Ok r, set_cond (oid_of p) None s2) =
                (exp (pw s b (out_lw qo)) * / lu M (fun a => mem a C) (vp s (out_trace qo)) * wtmp W P s b p F (Ok po, s2))%R).
        { intros qo s1 Hx1 s1'. destruct (Hoq _ _ Hx1) as ((Wq & Gq & Lq & Aq & Nq) & C1).
          destruct (Nq 0 HN) as (nq & Pq & Dq).
          assert (W1 : wf_st s1') by (apply wf_set_cond; [apply clean_wf, C1|intros t [= <-]; exact Wq]).
          assert (HlC : forall a, In a C -> latent_in (out_trace qo) a = true).
          { intros a Ha. destruct (produces_always _ _ _ _ _ Dq Haq a Ha) as (v & l & Hin).
            apply (Permutation_in _ Pq) in Hin. apply in_map_iff in Hin. destruct Hin as ([k x] & E & Hin). cbn in E. injection E as -> Eo _ _.
            unfold latent_in. rewrite (In_dget a x) by assumption. rewrite Eo. reflexivity. }
          assert (HkC : forall a, In a (dkeys (out_trace qo)) -> samples tp a -> In a C).
          { intros a Ha Hs. rewrite <- (viewp_keys P 0 b) in Ha. apply in_map_iff in Ha. destruct Ha as ([k x] & E & Hin). cbn in E. subst k.
            apply (Permutation_in _ (Permutation_sym Pq)) in Hin. apply (Hsh a); [|exact Hs]. eapply (produces_any M sp); eassumption. }
          assert (HvC : forall a, samples tp a -> value_in (Some (out_trace qo)) a <> None -> In a C).
          { intros a Hs Hv. apply HkC; [|exact Hs]. cbn in Hv. apply In_dkeys. destruct (dget a (out_trace qo)) as [x|]; [eauto|cbn in Hv; congruence]. }
          assert (Hsup : suppliesP W N B C (out_trace qo) tp).
          { split; [exact Wq|]. split; [exact Gq|]. split; [exact HlC|]. intros a Hs Hv. apply HlC, HvC; assumption. }
          split; [exact Wq|]. split; [exact Gq|]. split; [exact Lq|]. split; [exact C1|]. split; [exact W1|]. split; [exact Hsup|].
          split.
          { intros s a Hs' Hs. rewrite shared_dget by (rewrite viewp_keys; exact Wq). rewrite viewp_dget. unfold valp.
            destruct (mem a C) eqn:Em.
            - cbn. destruct (dget a (out_trace qo)); reflexivity.
            - destruct (value_in (Some (out_trace qo)) a) eqn:Ev; [|reflexivity]. exfalso. apply mem_not_In in Em. apply Em, HvC; [exact Hs|congruence]. }
          pose proof (Hqr _ _ Hx1) as Hqw. rewrite with_eq in Hqw by (intros t [= <-]; exact Wq).
          fold s1' in Hqw.
          assert (Hqp : quietP W N B (run p c kws' s1')).
          { intros [[a|e] s2] Hx; [eexists; reflexivity|].
            destruct (Hqw (Err e, set_cond (oid_of p) None s2)) as [z Hz]; [|discriminate Hz].
            apply poss_tbind. exists (Err e, set_cond (oid_of p) None s2). split; [apply poss_tbind; exists (Err e, s2); split; [exact Hx|constructor]|constructor]. }
          split; [exact Hqp|].
          assert (Hta : forall s (Hs : s < N), _) by (intros s Hs; rewrite <- (Etp s Hs) in Hsup;
            exact (targetP_all HL M ML W N B P PL sp s b Hs Hb C p p1 Hp c kws' s1' (out_trace qo) Hca (Hok' s Hs) Hk' W1 Hcl' Hdm' (get_set_same _ _ _) Hsup Hqp)).
          assert (Hka : forall s (Hs : s < N), _) by (intros s Hs; rewrite <- (Etp s Hs) in Hsup;
            exact (kept_factsP HL M ML W N B P PL sp s b Hs Hb C p p1 c kws' s1' (out_trace qo) Hp Hca (Hok' s Hs) Hk' W1 Hcl' Hdm' (get_set_same _ _ _) Hsup Hqp)).
          split; [apply (Hta 0 HN)|]. intros po s2 Hx2.
          destruct (proj2 (proj2 (Hta 0 HN)) _ _ Hx2) as (Sp & Wp & Gp & Lp & Ap & Pp). rewrite (Etp 0 HN) in Pp. split; [exact Wp|]. split.
          { intros i. destruct (Nat.eq_dec i (oid_of p)) as [->|Hne]; [apply get_set_same|]. rewrite get_set_other by exact Hne.
            apply poss_outcome, run_scoped in Hx2. apply (proj1 (proj2 Hx2)). unfold s1'. rewrite get_set_other by exact Hne. apply C1. }
          assert (Elu : forall s, s < N -> lu M (latent_in (out_trace po)) (vp s (out_trace qo)) = lu M (fun a => mem a C) (vp s (out_trace qo))).
          { intros s Hs. apply lu_ext. intros a v l Hin. apply Bool.eq_iff_eq_true. rewrite mem_In. unfold latent_in. split.
            - intros Hl. apply HkC.
              + rewrite <- (viewp_keys P s b). apply in_map_iff. exists (a, (false, v, l)). auto.
              + destruct (dget a (out_trace po)) as [x|] eqn:Er; [|discriminate]. eapply (produces_latent M sp _ _ _ Pp a (pt 0 (rv_value x)) (pt 0 (rv_logp x))).
                apply dget_In in Er. apply in_map_iff. exists (a, x). split; [|exact Er]. cbn. apply negb_true_iff in Hl. rewrite Hl. reflexivity.
            - intros Ha. destruct (produces_always _ _ _ _ _ Pp Hap a Ha) as (w & l' & Hi).
              apply in_map_iff in Hi. destruct Hi as ([k x] & E & Hi). cbn in E. injection E as -> Eo _ _.
              rewrite (In_dget a x) by assumption. rewrite Eo. reflexivity. }
          destruct (Hqw (propose_tail o p q None nr kws qo po, set_cond (oid_of p) None s2)) as [r Hr].
          { apply poss_tbind. exists (Ok po, set_cond (oid_of p) None s2). split; [apply poss_tbind; exists (Ok po, s2); split; [exact Hx2|constructor]|].
            unfold after. cbn [fst snd]. constructor. }
          cbn [fst] in Hr. exists r. split; [exact Hr|].
          destruct (propose_tail_facts HL (mkMeasures LV (fun _ => 0%R) unit (fun _ => tt) (fun _ _ => 0%R)) (fun _ => tt) _ _ _ _ _ _ _ _ Wq Wp Hr) as (mt & mo & Hmp & Wm & Htr & Wr & Eo & Elw).
          rewrite (no_gradient _ _ _ _ _ PL) in Elw. rewrite detach_outputP in Eo. rewrite (proj1 Hdm), (proj2 Hdm) in Elw.
          destruct (pw_logp_sum HL M W N B P PL (latent_in (out_trace po)) (out_trace qo) Gq) as [Lu1 Lu2].
          destruct (wl_sub M W N B P PL _ _ Lp Lu1) as [Ls1 Ls2]. destruct (wl_add HL M W N B P PL _ _ Lq Ls1) as [La1 La2].
          assert (Hk2 : forall s, s < N -> sound mt /\ goodtr mt /\ all_tensors ptens mo /\ produces (kept p1 c1 (kmap (part P 0 0) kws')) (vp s mt) (vmap (pt s) mo) /\
             forall F s1, wtmp W P s b p F (Ok po, s1) = (exp (pw s b (out_lw po)) * F (vp s mt) (vmap (pt s) mo))%R).
          { intros s Hs. pose proof (proj2 (Hka s Hs) _ _ _ _ Hx2 Hmp) as H. rewrite (Hc1 s Hs), <- Ek in H. exact H. }
          destruct (Hk2 0 HN) as (Sm & Gm & Am & _ & _).
          assert (Ev : forall s, s < N -> vp s (out_trace r) = vp s mt).
          { intros s Hs. destruct nr; [rewrite Htr; reflexivity|]. apply (rerun_viewp M W N B P PL); assumption. }
          split.
          { split; [exact Wr|]. split. { destruct nr; [rewrite Htr; exact Gm|]. apply (goodtr_rerun mt); try assumption. eapply propose_tail_resamplable; [exact Wq|exact Wp|exact Hr|reflexivity]. }
            split; [rewrite Elw; exact La1|]. split; [rewrite Eo; exact Am|]. intros s Hs. exists (vp s mt). split; [rewrite (Ev s Hs); apply Permutation_refl|].
            rewrite Eo. apply (Hk2 s Hs). }
          intros s F Hs. destruct (Hk2 s Hs) as (_ & _ & _ & _ & Hwtm). rewrite Hwtm. unfold wtp, okP. cbn [fst]. rewrite Elw, Eo, (Ev s Hs), La2, Ls2 by assumption.
          rewrite exp_plus. unfold Rminus. rewrite exp_plus, exp_Ropp, Lu2, Elu by assumption. ring. }
        split.
        + intros F HF. rewrite (EV_teq M W N B P PL _ _ _ Heq), (EV_after M W N B P PL) by exact Hqq.
          rewrite <- (Int_WCm M ML sp C p1 c1 (kmap (part P 0 0) kws') F Hok HnC Hap).
          rewrite <- (WC_divide M ML sp C C tq Haq Hpq HnC (fun a Ha => Ha) (fun x => WCm M x p1 c1 (kmap (part P 0 0) kws') F)).
          2:{ intros x y Hxy. eapply WCm_sub; [exact ML|exact Hok|]. intros a _. apply Hxy. }
          rewrite <- (HEq (fun n _ => / lu M (fun a => mem a C) n * WCm M (shared C n) p1 c1 (kmap (part P 0 0) kws') F)%R).
          2:{ intros n n' _ Hpm. rewrite (lu_perm _ _ _ _ Hpm). f_equal. eapply WCm_sub; [exact ML|exact Hok|]. intros a _. apply shared_perm, Hpm. }
          apply (EV_ext M W N B P PL). intros [[qo|e] s1] Hx1; [|reflexivity]. cbn [fst snd].
          destruct (Hstep _ _ Hx1) as (Wq & Gq & Lq & C1 & W1 & Hsup & Hval & Hqp & Hnr & Hpo). cbn zeta in *.
          rewrite with_eq by (intros t [= <-]; exact Wq). rewrite !(EV_tbind M W N B P PL).
          set (s1' := set_cond (oid_of p) (Some (out_trace qo)) s1) in *.
          transitivity (EV (run p c kws' s1') (fun x => / INR N * rsum (map (fun s =>
             (fun x => exp (pw s b (out_lw qo)) * / lu M (fun a => mem a C) (vp s (out_trace qo)) * wtmp W P s b p F x) x) (seq 0 N)))%R).
          * apply (EV_ext M W N B P PL). intros [[po|e] s2] Hx2.
            2:{ destruct (Hqp _ Hx2). discriminate. }
            destruct (Hpo _ _ Hx2) as (Wp & C2 & r & Hr & _ & Hw). cbn [expectation fst snd after]. unfold after. cbn [fst snd]. rewrite Hr. cbn [expectation].
            rewrite avg_wtp. f_equal. apply rsum_ext. intros s Hin. apply in_seq in Hin. apply Hw. lia.
          * rewrite (EV_scale M W N B P PL) by exact Hnr.
            rewrite (EV_rsum M W N B P PL _ (fun s x => (exp (pw s b (out_lw qo)) * / lu M (fun a => mem a C) (vp s (out_trace qo)) * wtmp W P s b p F x)%R)) by exact Hnr.
            rewrite avg_wtp. f_equal. apply rsum_ext. intros s Hin. apply in_seq in Hin. assert (Hs : s < N) by lia.
            rewrite (EV_scale M W N B P PL) by exact Hnr. unfold wtp, okP. cbn [fst]. rewrite Rmult_assoc. do 2 f_equal.
            rewrite <- (Etp s Hs) in Hsup.
            rewrite (proj1 (kept_factsP HL M ML W N B P PL sp s b Hs Hb C p p1 c kws' s1' (out_trace qo) Hp Hca (Hok' s Hs) Hk' W1 Hcl' Hdm' (get_set_same _ _ _) Hsup Hqp)).
            rewrite (Hc1 s Hs), <- Ek. eapply WCm_sub; [exact ML|exact Hok|]. intros a Ha. apply Hval; assumption.
        + intros r s' Hr. apply (poss_teq _ _ _ _ _ _ Heq) in Hr. apply poss_tbind in Hr. destruct Hr as ([[qo|e] s1] & Hx1 & Hr); unfold after in Hr; cbn [fst snd] in Hr.
          2:{ apply poss_leaf_inv in Hr. discriminate. }
          destruct (Hstep _ _ Hx1) as (Wq & Gq & Lq & C1 & W1 & Hsup & Hval & Hqp & Hnr & Hpo). cbn zeta in *.
          rewrite with_eq in Hr by (intros t [= <-]; exact Wq).
          apply poss_tbind in Hr. destruct Hr as (x & Hx & Hr). apply poss_tbind in Hx. destruct Hx as ([[po|e] s2] & Hx2 & Hx); cbn [fst snd] in Hx; apply poss_leaf_inv in Hx; subst x; cbn [fst snd] in Hr; apply poss_leaf_inv in Hr; [|discriminate].
          destruct (Hpo _ _ Hx2) as (Wp & C2 & r' & Hr' & Hres & _). rewrite Hr' in Hr. injection Hr as -> ->. split; assumption.
      - (* Resample *)
        destruct Hsmc as (Hwq & Hno & He).
        pose proof (wf_sub_kwargs ix kws Hk) as Hk'. pose proof (clash_sub3 ix kws Hcl) as Hcl'.
        pose proof (nt_sub ix kws Hnt Hkn) as Hkn'.
        assert (Esub : sub_kwargs ix1 (kmap (part P 0 0) kws) = kmap (part P 0 0) (sub_kwargs ix kws)) by (apply sub_part; assumption).
        cbn [target]. rewrite Esub in *. set (kws' := sub_kwargs ix kws) in *.
        assert (Hdm' : dims kws') by exact (dims_sub _ _ Hdm).
        pose proof (run_resample_eq oid q ix l0 (systematic W false) dbg c kws st Hk Hcl) as Heq. fold kws' in Heq.
        pose proof (teq_quietP _ _ _ _ _ Heq Hqu) as Hq'. destruct (quietP_after _ _ _ _ _ Hq') as [Hqq Hqr].
        destruct (IHq c c1 kws' st Hca Hc1 Hkn' Hwq Hk' Hc Hcl' Hdm' Hqq) as [HEq Hoq].
        split.
        + intros F HF. rewrite (EV_teq M W N B P PL _ _ _ Heq), (EV_after M W N B P PL) by exact Hqq. rewrite <- (HEq F HF).
          apply (EV_ext M W N B P PL). intros [[qo|e] s1] Hx1; [|reflexivity]. cbn [fst snd].
          destruct (Hoq _ _ Hx1) as [R1 C1]. apply (resample_step _ qo ix l0 dbg kws s1 Hno He R1 C1 Hdm), (Hqr _ _ Hx1).
        + intros r s' Hr. apply (poss_teq _ _ _ _ _ _ Heq) in Hr. apply poss_tbind in Hr. destruct Hr as ([[qo|e] s1] & Hx1 & Hr); unfold after in Hr; cbn [fst snd] in Hr.
          2:{ apply poss_leaf_inv in Hr. discriminate. }
          destruct (Hoq _ _ Hx1) as [R1 C1].
          apply (resample_step _ qo ix l0 dbg kws s1 Hno He R1 C1 Hdm (Hqr _ _ Hx1)), Hr.
    Qed.

    (** the same in the vocabulary of the specification *)
    Theorem population_weighted_spec t t1 c c1 kws st (h : list (string * T LS) -> pyval (T LS) -> R) :
      copies W N B P t t1 -> smc M sp t1 c1 (kmap (part P 0 0) kws) ->
      all_tensors ptens c -> (forall s, s < N -> vmap (pt s) c = c1) -> nt_kws kws -> dims kws ->
      wf_dict kws -> clean st -> clash ["self"; "c"; "fn"] kws = false ->
      (forall e s', ~ poss (run t c kws st) (Err e, s')) ->
      (forall l l' o, Permutation l l' -> h l o = h l' o) ->
      EV (run t c kws st) (weighted_average W N P b h) = density_sum M (target t1 c1 (kmap (part P 0 0) kws)) h.
    Proof.
      intros Hcp Hsm Hca Hc1 Hkn Hdm Hk Hc Hcl Hr Hh.
      destruct (population_weighted t t1 Hcp c c1 kws st Hca Hc1 Hkn Hsm Hk Hc Hcl Hdm) as [H _].
      - intros [[a|e] s'] Hx; [eexists; reflexivity|]. exfalso. exact (Hr e s' Hx).
      - rewrite <- (WC_density M ML), <- H.
        + apply (EV_ext M W N B P PL). intros [[o|e] s'] _; [|reflexivity]. unfold avg, okP, weighted_average. cbn [fst].
          f_equal. apply rsum_ext. intros s _. do 2 f_equal. unfold viewp, particle_values. rewrite map_map. reflexivity.
        + intros n n' o Hp. apply Hh, Permutation_map, Hp.
    Qed.
  End Main.
End Resampled.
