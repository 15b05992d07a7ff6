(** Proof of C61: the annealing sampler on a population, with or without resampling. *)
From Coq Require Import Lra.
From Verif Require Export SpecSampler SpecElbo ObjectivesArr.
From Verif Require Import SpecLoss Thm_Annealing Thm_Particles Thm_Resampled Thm_Scope Thm_Total.
Open Scope nat_scope.

Lemma map_nth_er (l : list ereal) : map (fun i => nth i l NInf) (seq 0 (length l)) = l.
Proof. induction l as [|x l IH]; [reflexivity|]. cbn [length seq map nth]. f_equal. rewrite <- seq_shift, map_map. exact IH. Qed.

(** results of runs all of whose draws can be drawn *)
Section Arises.
  Context {LV : lib} (W : array_view LV) (N B : nat) (supp : D LV -> T LV -> Prop).
  Notation aris := (arises W B supp).
  Lemma aris_leaf_inv {A} (a b : A) : aris (Leaf a) b -> b = a.
  Proof. intros H. inversion H. reflexivity. Qed.
  Lemma aris_dist_inv {A} d rep sh (k : T LV -> stree LV A) a : aris (Draw (DrawDist d rep sh) k) a -> exists v, supp d v /\ aris (k v) a.
  Proof. intros H. inversion H; subst. eauto. Qed.
  Lemma aris_rand_inv {A} (k : T LV -> stree LV A) a : aris (Draw DrawRand k) a -> exists v, offsets W B v /\ aris (k v) a.
  Proof. intros H. inversion H; subst. eauto. Qed.
  Lemma aris_tbind {A A'} (t : stree LV A) (k : A -> stree LV A') b : aris (tbind t k) b -> exists a, aris t a /\ aris (k a) b.
  Proof.
    induction t as [a|[d rep sh|] k' IH]; cbn [tbind]; intros H; [exists a; split; [constructor|exact H]| |].
    - apply aris_dist_inv in H. destruct H as (v & Hv & H). destruct (IH _ H) as (a & H1 & H2). exists a. split; [econstructor; eassumption|exact H2].
    - apply aris_rand_inv in H. destruct H as (v & Hv & H). destruct (IH _ H) as (a & H1 & H2). exists a. split; [econstructor; eassumption|exact H2].
  Qed.
  Lemma aris_teq {A} (t t' : stree LV A) a : teq t t' -> aris t a -> aris t' a.
  Proof.
    intros H. revert a. induction H as [x y ->|d k k' H IH]; intros a Ha; [exact Ha|]. destruct d as [d rep sh|].
    - apply aris_dist_inv in Ha. destruct Ha as (v & Hv & Ha). econstructor; [exact Hv|]. apply IH, Ha.
    - apply aris_rand_inv in Ha. destruct Ha as (v & Hv & Ha). econstructor; [exact Hv|]. apply IH, Ha.
  Qed.
  Lemma arises_possible {LS} (P : population LV LS) (PP : positive_population W N B P supp) {A} (t : stree LV A) a : aris t a -> possible W N B t a.
  Proof. induction 1; econstructor; try eassumption. eapply (supp_particles _ _ _ _ _ PP). eassumption. Qed.
End Arises.

Section Sampler.
  Context {LV LS : lib} (HL : lib_laws LV) (M : measures LS) (ML : measure_laws M) (W : array_view LV) (N B : nat)
          (P : population LV LS) (PL : population_laws W N B P M) (HN : 0 < N).
  Notation EV := (expectation P). Notation poss := (possible W N B).
  Notation ptens := (particles W N B). Notation lps := (log_probs W N B). Notation lws := (log_weights W N B).
  Notation pw := (particle_weight W). Notation weightlike := (weightlike W N B). Notation goodnode := (goodnode W N B).
  Context (pb : problem LV) (pb1 : problem LS) (HC : copies_problem W N B P pb pb1) (Z : nat -> Sp M) (HZ : path_spaces M Z pb1).
  Context (rep : pyval (T LV)) (Hlj : forall b pv, lj_ok LV rep b pv = true).
  Context (dd : D LV -> D LV)
    (Hdd1 : forall d v, tensor_equal LV (logp LV d v) (logp LV (dd d) v) = true)
    (Hdd2 : forall d s b, s < N -> b < B -> dpart P s b (dd d) = dpart P s b d).
  Context (loss_fn : out LV -> res (T LV)) (Hloss : forall o px, out_px o = Some px -> exists l, loss_fn o = Ok l) (avo : bool).
  Notation sd := (VInt (T := T LV) 0). Notation bd := (VInt (T := T LV) 1).
  Notation g1 := (path_density M pb1).

  Lemma exp_bsum x s b : lps x -> s < N -> b < B -> pw s b (bsum LV sd bd x) = lw M (part P s b x).
  Proof. intros Hx Hs Hb. destruct (batch_sum _ _ _ _ _ PL x Hx) as [H1 H2]. rewrite (pw_lws W N B) by exact H1. apply H2; assumption. Qed.
  Lemma bsum_wl x : lps x -> weightlike (bsum LV sd bd x).
  Proof. intros Hx. right. apply (batch_sum _ _ _ _ _ PL x Hx). Qed.

  (** log-density of the k-th target for one particle *)
  Definition lg (k : nat) (z : T LS) : T LS := match k with O => logp LS (pb_d0 pb1) z | S _ => target_logp (pb_target pb1 k) z end.
  Lemma target_parts k v : ptens v -> lps (target_logp (pb_target pb (S k)) v) /\
    forall s b, s < N -> b < B -> part P s b (target_logp (pb_target pb (S k)) v) = lg (S k) (part P s b v).
  Proof.
    intros Hv. pose proof (cp_target _ _ _ _ _ _ HC (S k)) as H. unfold lg. destruct (pb_target pb (S k)) as [d r|f], (pb_target pb1 (S k)) as [d1 r1|f1]; cbn in *; try contradiction.
    - split; [apply (log_prob _ _ _ _ _ PL), Hv|]. intros s b Hs Hb. rewrite (proj2 (log_prob _ _ _ _ _ PL d v Hv) s b Hs Hb), H by assumption. reflexivity.
    - apply H, Hv.
  Qed.

  (** what is known of the result of [k] steps *)
  Definition node_ok (k : nat) (r : rv LV) : Prop :=
    goodnode r /\ rv_prov r <> OBSERVED /\ rv_den r <> OtherRV /\ forall s b, s < N -> b < B -> part P s b (rv_logp r) = lg k (part P s b (rv_value r)).
  Definition ok (k : nat) (x : res (out LV) * st LV) : Prop :=
    exists r w v, node_ok k r /\ weightlike w /\ (0 < k -> lws w) /\ one_node (gname k) x r w v.
  Lemma ok_S_node k v : ptens v -> node_ok (S k) (tnode (pb_target pb (S k)) v).
  Proof.
    intros Hv. destruct (target_parts k v Hv) as [T1 T2]. split; [|split; [rewrite tnode_prov; discriminate|split]].
    - split; [rewrite tnode_value; exact Hv|]. split; [rewrite tnode_logp; exact T1|]. destruct (pb_target pb (S k)); reflexivity.
    - destruct (pb_target pb (S k)); discriminate.
    - intros s b Hs Hb. rewrite tnode_logp, tnode_value. apply T2; assumption.
  Qed.

  (** the weighted average of a function of the point *)
  Definition avg1 (b : nat) (F : T LS -> R) (x : res (out LV) * st LV) : R :=
    match fst x with
    | Ok o => match out_trace o with
              | (_, r) :: _ => (rsum (map (fun s => exp (pw s b (out_lw o)) * F (part P s b (rv_value r))) (seq 0 N)) / INR N)%R
              | [] => 0%R
              end
    | Err _ => 0%R
    end.
  Definition claim (c : pyval (T LV)) (k : nat) (q : inf LV) : Prop :=
    forall kws s, shaped sd bd rep kws -> at_rest s ->
      (forall x, poss (run q c kws s) x -> ok k x) /\
      (forall b F, b < B -> EV (run q c kws s) (avg1 b F) = integral M (Z k) (fun z => (g1 k z * F z)%R)).

  Lemma at_rest_poss q c kws s x : at_rest s -> poss (run q c kws s) x -> at_rest (snd x).
  Proof.
    intros [Hc Hh] Hx. destruct x as [r s']. apply poss_outcome, run_scoped in Hx. destruct Hx as (_ & H1 & H2). cbn [snd].
    split; [intros i; apply H1, Hc|]. rewrite H2. exact Hh.
  Qed.

  (** one Propose step after the proposal returned [x] *)
  Section Step.
    Context (base k of_ or_ ot : nat) (q : inf LV) (Hot : ot < base) (Hor : or_ < base) (Hne : ot <> or_).
    Let id := base + 4 * k.
    Let ix := VInt (T := T LV) (Z.of_nat k).
    Let fwd := kernel_prog of_ (gname k) (gname (S k)) (pb_fwd pb k) (pb_fwd_rep pb k).
    Let p := IExtend id (target_prog ot (gname (S k)) (pb_target pb (S k))) (kernel_prog or_ (gname (S k)) (gname k) (pb_rev pb k) (pb_rev_rep pb k)) (mkOpts default_loss None VNone false).
    Let qc := ICompose (id + 1) fwd q (mkOpts default_loss None VNone true).
    Let po := mkOpts (L := LV) (fun o loss => rmap (fun l => tadd LV l loss) (loss_fn o)) None ix true.
    Let tf := if avo then None else Some (stl_transf dd).
    Let prop := IPropose (id + 2) p qc po tf false.

    (** the weight of the new point *)
    Definition moved_weight (w w' : T LV) (v v' : T LV) : Prop :=
      lws w' /\ forall s b, s < N -> b < B ->
        pw s b w' = (pw s b w + (lw M (lg (S k) (part P s b v')) + lw M (logp LS (pb_rev pb1 k (part P s b v')) (part P s b v)))
                     - (lw M (logp LS (pb_fwd pb1 k (part P s b v)) (part P s b v')) + lw M (lg k (part P s b v))))%R.

    (** the objective of the step, and the weight it adds *)
    Definition lossval (o : out LV) : T LV := match out_loss o with Some l => l | None => tzero LV end.
    Definition scored (o1 o : out LV) (w w' : T LV) : Prop :=
      exists px l, out_px o = Some px /\ lws (px_lv px) /\ (forall s b, s < N -> b < B -> pw s b w' = (pw s b w + pw s b (px_lv px))%R) /\
        loss_fn (before_loss o) = Ok l /\ out_loss o = Some (tadd LV l (lossval o1)).

    Definition rest (c : pyval (T LV)) (kws : dict (pyval (T LV))) (x : res (out LV) * st LV) : stree LV (res (out LV) * st LV) :=
      tbind (after x (fun o1 s1 => tbind (run fwd (out_output o1) (sub_kwargs VNone (sub_kwargs ix kws)) s1) (fun y => after y (fun o2 s2 =>
               Leaf (compose_tail (mkOpts default_loss None VNone true) (sub_kwargs ix kws) o1 o2, s2)))))
        (fun x => after x (fun qo s1 =>
         tbind (with_substitution id (Some (out_trace qo)) (run p c (sub_kwargs ix kws)) s1)
           (fun y => after y (fun po' s2 => Leaf (propose_tail po p qc tf false kws qo po', s2))))).

    Lemma prop_eq c kws s : shaped sd bd rep kws -> clean s ->
      teq (run prop c kws s) (tbind (run q c (sub_kwargs VNone (sub_kwargs ix kws)) s) (rest c kws)).
    Proof.
      intros Hk Hcl. pose proof Hk as (K1 & _). pose proof (shaped_sub sd bd rep ix kws Hk) as (K1' & _).
      eapply teq_trans; [apply run_propose_eq; [apply K1|intros i t E; rewrite Hcl in E; discriminate|apply call_ok_clash, K1|reflexivity]|].
      cbn [in_ix po]. fold ix. change (oid_of p) with id.
      eapply teq_trans; [apply teq_tbind; [apply run_compose_eq; [apply K1'|apply call_ok_clash, K1']|intros x; apply teq_refl]|].
      cbn [in_ix]. eapply teq_trans; [apply teq_assoc|]. apply teq_refl.
    Qed.

    Lemma rest_eq c kws x r w v : shaped sd bd rep kws -> node_ok k r -> weightlike w -> one_node (gname k) x r w v ->
      exists f, teq (rest c kws x) (Draw (DrawDist (pb_fwd pb k v) (pb_fwd_rep pb k) VNone) f) /\
        forall v', ptens v' -> exists w' o s', moved_weight w w' v v' /\ teq (f v') (Leaf (Ok o, s')) /\
          one_node (gname (S k)) (Ok o, s') (tnode (pb_target pb (S k)) v') w' v' /\ forall o1, fst x = Ok o1 -> scored o1 o w w'.
    Proof.
      intros Hk ((Gv & Gl & Gr) & Hrp & _ & Hlp) Hw (o1 & s1 & -> & Hcl & Ht1 & Hv1 & _ & Ho1 & Hw1). subst w.
      pose proof (shaped_sub sd bd rep ix kws Hk) as Hk'. pose proof (shaped_sub sd bd rep VNone _ Hk') as (Q1 & Q2 & Q3 & Q4).
      pose proof Hk as (K1 & K2 & K3 & K4).
      eexists. split.
      { unfold rest. unfold after at 1. cbn [fst snd]. rewrite Ho1.
        eapply teq_trans.
        { apply teq_tbind; [|intros y; apply teq_refl]. apply teq_tbind; [|intros y; apply teq_refl].
          apply (kernel_free HL sd bd rep of_ (gname k) (gname (S k)) (pb_fwd pb k) (pb_fwd_rep pb k) v _ s1 Q1 (Hcl of_) Q2 Q3 Q4). }
        cbn [tbind]. apply sd_draw. intros v'. apply teq_refl. }
      intros v' Hv'. cbv beta.
      set (rb := mkRV (Proper (pb_fwd pb k v)) v' (logp LV (pb_fwd pb k v) v') SAMPLED (pb_fwd_rep pb k) true) in *.
      match goal with |- context [log_call ?z s1] => set (s2 := log_call z s1) end.
      match goal with |- context [after (Ok ?z, s2) _] => set (o2 := z) end.
      assert (Hct : exists qo, compose_tail (mkOpts default_loss None VNone true) (sub_kwargs ix kws) o1 o2 = Ok qo /\
        out_trace qo = [(gname (S k), rb); (gname k, r)] /\ out_lw qo = tadd LV (out_lw o1) (tzero LV) /\ out_type qo = TyCompose /\
        (exists o2, get_sub "q2_out" qo = Some o2) /\ out_loss qo = Some (lossval o1)).
      { unfold compose_tail, o2. cbn [out_trace]. rewrite Ht1.
        match goal with |- context [copytraces ?a ?b ?c] => replace (copytraces a b c) with (Ok (A := trace LV) [(gname (S k), rb); (gname k, r)]) by (symmetry; apply copy_two, gname_neq) end. cbn [rbind].
        unfold sinter, mem. cbn [dkeys map fst filter existsb]. rewrite gname_neq'. cbn [orb].
        unfold add_loss. cbn [in_loss in_loss0 in_debug default_loss rmap rbind]. rewrite orb_true_r.
        eexists. split; [reflexivity|]. split; [reflexivity|]. split; [reflexivity|]. split; [reflexivity|]. split; [eexists; reflexivity|]. reflexivity. }
      destruct Hct as (qo & Eqo & Htr & Hlw & Hty & (o2' & Hq2) & Hlq).
      unfold after. cbn [fst snd tbind]. rewrite Eqo. cbn [fst snd].
      assert (Hcl1 : clean s2) by exact Hcl. clearbody s2 o2.
      rewrite with_eq.
      2:{ intros tr E. injection E as <-. rewrite Htr. apply two_wf, gname_neq. }
      destruct (extend_step HL sd bd rep Hlj (gname k) (gname (S k)) (gname_neq k) id ot or_ (pb_target pb (S k)) (pb_rev pb k) (pb_rev_rep pb k)
        (mkOpts default_loss None VNone false) c (sub_kwargs ix kws) (set_cond id (Some (out_trace qo)) s2) rb r) as (pout & s3 & Hp & Hpt & Hplw & Hpm & Hps).
      { exact Hk'. }
      { apply wf_set_cond; [|intros t E; injection E as <-; rewrite Htr; apply two_wf, gname_neq].
        intros i t E. rewrite Hcl1 in E. discriminate. }
      { rewrite get_set_same, Htr. reflexivity. }
      { discriminate. } { exact Hrp. } { unfold id. lia. } { unfold id. lia. } { exact Hne. } { reflexivity. }
      change (rv_value rb) with v' in *. rewrite Hv1 in *.
      (* the weights *)
      pose proof (log_prob _ _ _ _ _ PL (pb_fwd pb k v) v' Hv') as [LF1 LF2].
      pose proof (log_prob _ _ _ _ _ PL (pb_rev pb k v') v Gv) as [LR1 LR2].
      pose proof (target_parts k v' Hv') as [LT1 LT2].
      assert (Hlat : latent_addrs (out_trace qo) = [gname (S k); gname k]).
      { rewrite Htr. apply latent_two; [discriminate|exact Hrp]. }
      assert (Hlat2 : latent_addrs (out_trace pout) = [gname (S k); gname k]).
      { rewrite Hpt. apply latent_two; [rewrite tnode_prov; discriminate|discriminate]. }
      assert (Hnodes : sdiff (dkeys (out_trace qo)) (sdiff (latent_addrs (out_trace qo)) (latent_addrs (out_trace pout))) = [gname (S k); gname k]).
      { rewrite Hlat, Hlat2, Htr. cbn [dkeys map fst]. unfold sdiff, mem. cbn [filter existsb]. rewrite !String.eqb_refl, gname_neq.
        reflexivity. }
      assert (Htf : exists tr' rb', apply_transf tf (out_trace qo) (firstn 5 (sub_kwargs ix kws)) = Ok tr' /\
         dget (gname (S k)) tr' = Some rb' /\ dget (gname k) tr' = Some r /\ lps (rv_logp rb') /\
         forall s b, s < N -> b < B -> part P s b (rv_logp rb') = part P s b (logp LV (pb_fwd pb k v) v')).
      { rewrite Htr. unfold tf. destruct avo.
        - exists [(gname (S k), rb); (gname k, r)], rb. cbn [apply_transf dget]. rewrite !String.eqb_refl, gname_neq.
          split; [reflexivity|]. split; [reflexivity|]. split; [reflexivity|]. split; [exact LF1|]. reflexivity.
        - unfold ix. rewrite (stl_two dd Hdd1 k rb r kws (pb_fwd pb k v) eq_refl eq_refl). eexists. eexists. split; [reflexivity|].
          cbn [dget]. rewrite !String.eqb_refl, gname_neq'. split; [reflexivity|]. split; [reflexivity|]. cbn [rv_logp rb rv_value].
          split; [apply (log_prob _ _ _ _ _ PL), Hv'|]. intros s b Hs Hb.
          rewrite !(part_logp M W N B P PL) by assumption. rewrite Hdd2 by assumption. reflexivity. }
      destruct Htf as (tr' & rb' & Etf & Hb' & Ha' & Lb & Hvb').
      assert (Hlj2 : exists lu, log_joint sd bd rep [gname (S k); gname k] tr' = Ok lu /\ weightlike lu /\ forall s b, s < N -> b < B ->
         pw s b lu = (pw s b (bsum LV sd bd (rv_logp rb')) + pw s b (bsum LV sd bd (rv_logp r)))%R).
      { pose proof (bsum_wl _ Lb) as W1. pose proof (bsum_wl _ Gl) as W2.
        destruct (lj_two HL sd bd rep Hlj _ _ tr' rb' r Hb' Ha') as [E|E]; rewrite E; eexists; (split; [reflexivity|]);
          rewrite (tadd_zero LV HL).
        - destruct (wl_add HL M W N B P PL _ _ W1 W2) as [A1 A2]. split; [exact A1|]. exact A2.
        - destruct (wl_add HL M W N B P PL _ _ W2 W1) as [A1 A2]. split; [exact A1|]. intros s b Hs Hb. rewrite A2 by assumption. ring. }
      destruct Hlj2 as (lu & Elu & Wlu & Hlu).
      assert (Hpw : lws (out_lw pout) /\ forall s b, s < N -> b < B -> pw s b (out_lw pout) =
        (lw M (lg (S k) (part P s b v')) + lw M (logp LS (pb_rev pb1 k (part P s b v')) (part P s b v)))%R).
      { rewrite Hplw, !(tadd_zero LV HL). destruct (batch_sum _ _ _ _ _ PL _ LT1) as [B1 B2]. destruct (batch_sum _ _ _ _ _ PL _ LR1) as [B3 B4].
        destruct (add_weights _ _ _ _ _ PL _ _ B1 B3) as [A1 A2]. split; [exact A1|]. intros s b Hs Hb.
        rewrite (pw_lws W N B) by exact A1. rewrite A2, B2, B4, LT2, LR2 by assumption.
        rewrite (cp_rev _ _ _ _ _ _ HC) by assumption. reflexivity. }
      destruct Hpw as [LP1 LP2].
      assert (Hsub : lws (tsub LV (out_lw pout) lu) /\ forall s b, s < N -> b < B -> pw s b (tsub LV (out_lw pout) lu) = (pw s b (out_lw pout) - pw s b lu)%R).
      { split; [|intros s b Hs Hb; apply (wl_sub M W N B P PL); try assumption; right; exact LP1].
        destruct Wlu as [->|H]; [apply (sub_zero _ _ _ _ _ PL), LP1|apply (sub_weights _ _ _ _ _ PL); assumption]. }
      destruct Hsub as [LS1 LS2].
      set (w' := tadd LV (out_lw qo) (tsub LV (out_lw pout) lu)).
      assert (Hw' : moved_weight (out_lw o1) w' v v').
      { assert (Eq : out_lw qo = out_lw o1) by (rewrite Hlw, (tadd_comm LV HL); apply (tadd_zero LV HL)). 
        unfold w'. rewrite Eq. split.
        - destruct Hw as [->|H]; [rewrite (tadd_zero LV HL); exact LS1|apply (add_weights _ _ _ _ _ PL); assumption].
        - intros s b Hs Hb. rewrite (proj2 (wl_add HL M W N B P PL _ _ Hw (or_intror LS1))), LS2, LP2, Hlu by assumption.
          rewrite !exp_bsum, Hvb', Hlp, LF2 by assumption. rewrite (cp_fwd _ _ _ _ _ _ HC) by assumption. ring. }
      assert (Hpr : exists o, propose_tail po p qc tf false kws qo pout = Ok o /\ out_trace o = [(gname (S k), tnode (pb_target pb (S k)) v')] /\
        out_output o = VDict [(gname (S k), VTensor v')] /\ out_lw o = w' /\
        exists px l, out_px o = Some px /\ px_lv px = tsub LV (out_lw pout) lu /\ loss_fn (before_loss o) = Ok l /\ out_loss o = Some (tadd LV l (lossval o1))).
      { unfold propose_tail. cbn [in_ix in_loss in_loss0 in_debug po]. fold ix. rewrite Hnodes, Etf. cbn [rbind]. rewrite K2, K3, K4, Elu. cbn [rbind].
        fold w'. unfold marginalize. cbn [is_extend p]. rewrite Hpm.
        assert (Hdrop : sdiff (dkeys (out_trace pout)) [gname (S k)] = [gname k]).
        { rewrite Hpt. cbn [dkeys map fst]. unfold sdiff, mem. cbn [filter existsb]. rewrite String.eqb_refl, gname_neq. reflexivity. }
        rewrite Hdrop. rewrite copytraces_filter by (rewrite Hpt; apply two_wf, gname_neq).
        assert (Hflt : filter (keep LV (fun k0 => mem k0 [gname k])) (out_trace pout) = [(gname (S k), tnode (pb_target pb (S k)) v')]).
        { rewrite Hpt. unfold keep, mem. cbn [filter fst existsb]. rewrite String.eqb_refl, gname_neq'. reflexivity. }
        rewrite Hflt. cbn [rmap rbind fst snd].
        unfold rerun_with_detached_values. cbn [rerun_items]. rewrite tnode_rerun. cbn [rbind rerun_items dset].
        rewrite (lws_tensor W N B w') by apply Hw'. cbn [rbind].
        rewrite copytraces_one by (rewrite Htr; apply two_wf, gname_neq). cbn [rbind].
        rewrite copytraces_one by (rewrite Hpt; apply two_wf, gname_neq). cbn [rbind].
        unfold forward_trace, qc. cbn [debug_attr in_debug rbind]. rewrite Hty, Hq2. cbn [rbind].
        unfold add_loss. cbn [in_loss].
        match goal with |- context [rmap _ (rmap _ (loss_fn ?o))] => destruct (Hloss o _ eq_refl) as (l & El); rewrite El end.
        cbn [rmap rbind]. rewrite orb_true_r. eexists. split; [reflexivity|].
        cbn [add_subs with_loss out_trace out_output out_lw detach_output map fst snd detach_entry rv_value out_px out_loss].
        rewrite !(no_gradient _ _ _ _ _ PL). do 3 (split; [reflexivity|]). eexists. exists l. split; [reflexivity|]. split; [reflexivity|].
        rewrite Hlq. split; [|reflexivity]. rewrite <- El. cbn. rewrite !(no_gradient _ _ _ _ _ PL). reflexivity. }
      destruct Hpr as (o & Epr & Et & Eo & Ew & px & l & Epx & Elv & El & Eol).
      exists w', o, (set_cond id None s3). split; [exact Hw'|]. split.
      - eapply teq_trans.
        { eapply teq_trans; [apply teq_assoc|]. cbn [tbind].
          apply teq_tbind; [exact Hp|]. intros y. apply teq_refl. }
        cbn [tbind fst snd]. apply teq_eq. rewrite Epr. reflexivity.
      - split.
        2:{ intros o1' [= <-]. exists px, l. rewrite Elv. split; [exact Epx|]. split; [exact LS1|]. split; [|split; assumption].
          intros s b Hs Hb. assert (Eq : out_lw qo = out_lw o1) by (rewrite Hlw, (tadd_comm LV HL); apply (tadd_zero LV HL)).
          unfold w'. rewrite Eq. apply (proj2 (wl_add HL M W N B P PL _ _ Hw (or_intror LS1))); assumption. }
        exists o, (set_cond id None s3). split; [reflexivity|]. split.
        { intros j. destruct (Nat.eq_dec j id) as [->|Hj]; [apply get_set_same|]. rewrite get_set_other by exact Hj.
          destruct (Hps j) as [E|E]; [exact E|]. rewrite E, get_set_other by exact Hj. apply Hcl1. }
        rewrite tnode_value, tnode_prov. repeat split; try assumption. discriminate.
    Qed.

    Lemma prop_claim c : claim c k q -> claim c (S k) prop.
    Proof.
      intros Hq kws s Hk Hs. pose proof (prop_eq c kws s Hk (proj1 Hs)) as Heq.
      pose proof (shaped_sub sd bd rep VNone _ (shaped_sub sd bd rep ix kws Hk)) as Hk2.
      destruct (Hq _ s Hk2 Hs) as [HA HB]. split.
      - intros x Hx. apply (poss_teq W N B _ _ _ Heq) in Hx. apply poss_tbind in Hx. destruct Hx as (y & Hy & Hx).
        destruct (HA y Hy) as (r & w & v & Hr & Hw & _ & Hone).
        destruct (rest_eq c kws y r w v Hk Hr Hw Hone) as (f & Ef & Hf). apply (poss_teq W N B _ _ _ Ef) in Hx.
        apply poss_draw_inv in Hx. destruct Hx as (v' & Hv' & Hx). cbn [drawn] in Hv'.
        destruct (Hf v' Hv') as (w' & o & s' & Hmw & Et & Hone' & _). apply (poss_teq W N B _ _ _ Et) in Hx. apply poss_leaf_inv in Hx. subst x.
        exists (tnode (pb_target pb (S k)) v'), w', v'. split; [apply ok_S_node, Hv'|]. split; [right; apply Hmw|]. split; [intros _; apply Hmw|exact Hone'].
      - intros b F Hb. rewrite (EV_teq M W N B P PL _ _ _ Heq), (EV_tbind M W N B P PL).
        set (G := fun z => (exp (- lw M (lg k z)) * integral M (Z (S k)) (fun z' => (g1 (S k) z' * (pmass M (pb_rev pb1 k z') z * F z'))%R))%R).
        transitivity (EV (run q c (sub_kwargs VNone (sub_kwargs ix kws)) s) (avg1 b G)).
        + apply (EV_ext M W N B P PL). intros y Hy. destruct (HA y Hy) as (r & w & v & Hr & Hw & _ & Hone).
          destruct (rest_eq c kws y r w v Hk Hr Hw Hone) as (f & Ef & Hf). rewrite (EV_teq M W N B P PL _ _ _ Ef). cbn [expectation].
          destruct Hone as (o1 & s1 & -> & _ & Ht1 & Hv1 & _ & _ & Ew). unfold avg1 at 2. cbn [fst]. rewrite Ht1, Ew, Hv1.
          set (E := fun sx z' => (exp (lw M (lg (S k) z')) * (pmass M (pb_rev pb1 k z') (part P sx b v) * (/ pmass M (pb_fwd pb1 k (part P sx b v)) z' * F z')))%R).
          transitivity (mean P (pb_fwd pb k v) (fun v' => (/ INR N * rsum (map (fun sx => (exp (pw sx b w) * exp (- lw M (lg k (part P sx b v)))) * E sx (part P sx b v')) (seq 0 N)))%R)).
          * apply (mean_ext _ _ _ _ _ PL). intros v' Hv'. destruct (Hf v' Hv') as (w' & o & s' & Hmw & Et & Hone' & _). rewrite (EV_teq M W N B P PL _ _ _ Et). cbn [expectation].
            destruct Hone' as (o' & s'' & [= <- <-] & _ & Ht' & Hv1' & _ & _ & Ew'). unfold avg1. cbn [fst]. rewrite Ht', Ew', Hv1'. unfold Rdiv. rewrite Rmult_comm. f_equal.
            apply rsum_ext. intros sx Hsx. apply in_seq in Hsx. rewrite (proj2 Hmw) by (assumption || lia). unfold E, pmass. rewrite <- exp_Ropp.
            unfold Rminus. rewrite Ropp_plus_distr, !exp_plus. ring.
          * rewrite (mean_scale _ _ _ _ _ PL). unfold Rdiv. rewrite Rmult_comm. f_equal.
            pose proof (EV_rsum M W N B P PL (Draw (DrawDist (pb_fwd pb k v) false VNone) (fun x => Leaf x))
              (fun sx v' => (exp (pw sx b w) * exp (- lw M (lg k (part P sx b v))) * E sx (part P sx b v'))%R) (seq 0 N)) as HE.
            cbn [expectation] in HE. rewrite HE by (intros x _; exact I). clear HE.
            apply rsum_ext. intros sx Hsx. apply in_seq in Hsx. rewrite (mean_scale _ _ _ _ _ PL), Rmult_assoc. f_equal. unfold G. f_equal.
            rewrite (mean_part _ _ _ _ _ PL) by (assumption || lia).
            destruct Hr as ((Gv & _) & _). rewrite Hv1 in Gv. rewrite (cp_fwd _ _ _ _ _ _ HC) by (assumption || lia). rewrite (ps_fwd _ _ _ HZ).
            apply (int_ext _ ML). intros z'. unfold E, path_density, lg. unfold pmass at 1 3.
            set (e := exp (lw M (logp LS (pb_fwd pb1 k (part P sx b v)) z'))). assert (He : e <> 0%R) by (apply Rgt_not_eq, exp_pos). field. exact He.
        + rewrite HB by exact Hb. unfold G.
          transitivity (integral M (Z k) (fun z => integral M (Z (S k)) (fun z' => (g1 (S k) z' * F z' * pmass M (pb_rev pb1 k z') z)%R))).
          * apply (int_ext _ ML). intros z. rewrite <- Rmult_assoc. change (g1 k z) with (exp (lw M (lg k z))). rewrite <- exp_plus, Rplus_opp_r, exp_0, Rmult_1_l.
            apply (int_ext _ ML). intros z'. ring.
          * rewrite (int_swap _ ML). apply (int_ext _ ML). intros z'. rewrite (int_scale _ ML).
            pose proof (normalised _ ML (pb_rev pb1 k z')) as HN1. rewrite (ps_rev _ _ _ HZ) in HN1. unfold pmass. rewrite HN1. ring.
    Qed.
  End Step.

  Lemma resample_step c k q kws s : claim c (S k) q -> shaped sd bd rep kws -> at_rest s ->
    forall y, poss (run q c (sub_kwargs VNone kws) s) y -> exists qo s1 f, y = (Ok qo, s1) /\
      after y (fun qo s1 => tbind (rs_call (systematic W false) (out_trace qo) (out_lw qo) [("sample_dims", sd); ("batch_dim", bd)])
        (fun r => Leaf (resample_tail VNone None false kws qo s1 r))) = Draw DrawRand f /\
      lws (out_lw qo) /\ exists r, out_trace qo = [(gname (S k), r)] /\
      forall v, drawn W N B DrawRand v -> exists o s' r', f v = Leaf (Ok o, s') /\ node_ok (S k) r' /\
        out_lw o = of_arr W (mean_weight (to_arr W (out_lw qo))) /\
        one_node (gname (S k)) (Ok o, s') r' (out_lw o) (rv_value r') /\ (forall l, out_loss qo = Some l -> out_loss o = Some l) /\
        forall sx b, sx < N -> b < B -> part P sx b (rv_value r') = part P (anc W (out_lw qo) v b sx) b (rv_value r).
  Proof.
    intros Hq Hk Hs. destruct (Hq _ s (shaped_sub sd bd rep VNone kws Hk) Hs) as [HA _].
    intros y Hy. destruct (HA y Hy) as (r & w & v & Hr & _ & Hl & o1 & s1 & -> & Hcl & Ht1 & Hv1 & Hp1 & Ho1 & Ew).
      specialize (Hl ltac:(lia)). subst w. exists o1, s1. eexists. split; [reflexivity|]. split.
      { unfold after. cbn [fst snd rs_call systematic]. rewrite (systematic_eq W N B HN) by exact Hl. cbn [tbind]. reflexivity. }
      split; [exact Hl|]. exists r. split; [exact Ht1|]. intros u Hu. cbv beta.
      destruct Hr as ((Gv & Gl & Gr) & Hrp & Hden & Hlp).
      destruct (pick_total W N B HN _ u _ Hl Hu Gv) as [v' Ev]. destruct (pick_total W N B HN _ u _ Hl Hu (proj1 Gl)) as [l' El].
      assert (Eobs : is_observed r = false) by (unfold is_observed; destruct (rv_prov r); congruence || reflexivity).
      assert (Hrr : exists r', resample_rv W (aidx W N B (out_lw o1) u) r = Ok r' /\ rv_value r' = v' /\ rv_logp r' = l' /\ rv_prov r' = rv_prov r /\ rv_den r' = rv_den r /\ rv_resamplable r' = true).
      { unfold resample_rv. rewrite Gr, Eobs, Ev, El. cbn [negb orb rbind]. destruct (rv_den r) eqn:Ed; try congruence; eexists; (split; [reflexivity|]); cbn; repeat split; congruence. }
      destruct Hrr as (r' & Er & R1 & R2 & R3 & R4 & R5).
      destruct (pick_facts M W N B P PL HN _ _ _ _ Hl Hu Gv Ev) as (V1 & _ & V2). destruct (pick_facts M W N B P PL HN _ _ _ _ Hl Hu (proj1 Gl) El) as (_ & L2 & L3).
      assert (Hn' : node_ok (S k) r').
      { split; [split; [rewrite R1; exact V1|split; [rewrite R2; apply L2, Gl|exact R5]]|]. split; [congruence|]. split; [congruence|].
        intros sx b Hsx Hb. rewrite R2, R1, L3, V2, Hlp by (try assumption; apply (anc_lt W N B HN); assumption). reflexivity. }
      pose proof (at_rest_poss q c _ s _ Hs Hy) as [_ Hhk]. cbn [snd] in Hhk.
      destruct (Hhk (store s1) (out_trace o1) [(gname (S k), r')]) as [d' Ehk].
      rewrite Ht1. cbn [resample_nodes]. rewrite Er. cbn [rbind]. unfold resample_tail. rewrite Ho1.
      unfold as_trace. cbn [dmerge fold_left fst snd dset]. 
      cbn [resample_output dget]. rewrite String.eqb_refl. cbn [rbind]. rewrite Ehk. unfold add_loss. cbn [default_loss rmap rbind].
      eexists. exists (set_store d' s1), r'. split; [reflexivity|]. split; [exact Hn'|].
      match goal with |- context [add_subs ?d ?sb ?x] => destruct (sd_fields LV d sb x) as (F1 & F2 & F3 & _ & _ & F5 & _) end.
      cbn [with_loss out_trace out_lw out_output out_loss] in F1, F2, F3, F5. split; [exact F2|]. split; [|split].
      - eexists. eexists. split; [reflexivity|]. split; [exact Hcl|]. rewrite F1, F3. repeat split. congruence.
      - intros l El'. rewrite F5, El'. reflexivity.
      - intros sx b Hsx Hb. rewrite R1. apply V2; assumption.
  Qed.
  Lemma resample_claim c k oid q : claim c (S k) q -> claim c (S k) (IResample oid q VNone None (systematic W false) false).
  Proof.
    intros Hq kws s Hk Hs. pose proof Hk as (K1 & K2 & K3 & K4).
    pose proof (run_resample_eq oid q VNone None (systematic W false) false c kws s (proj1 K1) (call_ok_clash _ K1)) as Heq.
    destruct (Hq _ s (shaped_sub sd bd rep VNone kws Hk) Hs) as [HA HB].
    rewrite K2, K3, passable_systematic in Heq.
    pose proof (fun y => resample_step c k q kws s Hq Hk Hs y) as Hstep.
    split.
    - intros x Hx. apply (poss_teq W N B _ _ _ Heq) in Hx. apply poss_tbind in Hx. destruct Hx as (y & Hy & Hx).
      destruct (Hstep y Hy) as (qo & s1 & f & _ & E & Hl & r & _ & Hf). rewrite E in Hx. apply poss_draw_inv in Hx. destruct Hx as (u & Hu & Hx).
      destruct (Hf u Hu) as (o & s' & r' & Ef & Hn & Ew & Hone & _ & _). rewrite Ef in Hx. apply poss_leaf_inv in Hx. subst x.
      assert (Lw : lws (out_lw o)) by (rewrite Ew; apply (mean_facts W N B HN _ Hl)).
      exists r', (out_lw o), (rv_value r'). split; [exact Hn|]. split; [right; exact Lw|]. split; [intros _; exact Lw|exact Hone].
    - intros b F Hb. rewrite (EV_teq M W N B P PL _ _ _ Heq), (EV_tbind M W N B P PL), <- (HB b F Hb).
      apply (EV_ext M W N B P PL). intros y Hy. destruct (Hstep y Hy) as (qo & s1 & f & -> & E & Hl & r & Ht & Hf). rewrite E. cbn [expectation].
      unfold avg1 at 2. cbn [fst]. rewrite Ht.
      transitivity (mean_offset P (fun v => (Z_hat (anc_col W (out_lw qo) b) * (rsum (map (fun sx => F (part P (anc W (out_lw qo) v b sx) b (rv_value r))) (seq 0 N)) / INR N))%R)).
      + apply (offset_ext _ _ _ _ _ PL). intros u Hu. destruct (Hf u Hu) as (o & s' & r' & Ef & _ & Ew & (o' & s'' & [= <- <-] & _ & Ht' & _) & _ & Hm). rewrite Ef. cbn [expectation].
        unfold avg1. cbn [fst]. rewrite Ht'. unfold Rdiv. rewrite <- Rmult_assoc. f_equal. rewrite <- rsum_scale, map_map. apply rsum_ext.
        intros sx Hin. apply in_seq in Hin. rewrite Hm by (assumption || lia). f_equal.
        destruct (mean_facts W N B HN _ Hl) as [Lw Ewt]. rewrite Ew, (pw_lws W N B) by exact Lw. apply Ewt; [lia|exact Hb].
      + rewrite (resample_average M W N B P PL HN (fun i => F (part P i b (rv_value r)))) by assumption. do 2 f_equal. apply map_ext. intros sx.
        rewrite (pw_lws W N B) by exact Hl. reflexivity.
  Qed.

  (** the whole sampler *)
  Context (base : nat) (Hot : forall k, pb_oid_t pb k < base) (Hor : forall k, pb_oid_r pb k < base)
    (Hne : forall k, pb_oid_t pb (S k) <> pb_oid_r pb k) (resample : bool).
  Notation step i := (kernel_prog (pb_oid_f pb i) (gname i) (gname (S i)) (pb_fwd pb i) (pb_fwd_rep pb i),
                      (kernel_prog (pb_oid_r pb i) (gname (S i)) (gname i) (pb_rev pb i) (pb_rev_rep pb i),
                       target_prog (pb_oid_t pb (S i)) (gname (S i)) (pb_target pb (S i)))).

  Lemma loop_claim n c m : forall k q, claim c k q ->
    claim c (k + m) (vsmc_loop dd loss_fn avo resample (systematic W false) base n k (map (fun i => step i) (seq k m)) q).
  Proof.
    induction m as [|m IH]; intros k q Hq; cbn [seq map vsmc_loop].
    - rewrite Nat.add_0_r. exact Hq.
    - rewrite <- plus_Snm_nSm. apply (IH (S k)). unfold vsmc_step.
      pose proof (prop_claim base k (pb_oid_f pb k) (pb_oid_r pb k) (pb_oid_t pb (S k)) q (Hot (S k)) (Hor k) (Hne k) c Hq) as Hp.
      destruct (resample && (k <? n - 1)); [apply resample_claim|]; exact Hp.
  Qed.

  Lemma init_claim c : claim c 0 (distribution_prog (pb_oid_t pb 0) (gname 0) (pb_d0 pb) (pb_rep0 pb)).
  Proof.
    intros kws s (K1 & K2 & K3 & K4) [Hcl _].
    pose proof (init_free HL sd bd rep (pb_oid_t pb 0) (gname 0) (pb_d0 pb) (pb_rep0 pb) c kws s K1 (Hcl _) K2 K3 K4) as Heq. split.
    - intros x Hx. apply (poss_teq W N B _ _ _ Heq) in Hx. apply poss_draw_inv in Hx. destruct Hx as (v & Hv & Hx). apply poss_leaf_inv in Hx. subst x. cbn [drawn] in Hv.
      eexists. exists (tzero LV), v. split; cycle 1.
      + split; [left; reflexivity|]. split; [lia|]. eexists. eexists. split; [reflexivity|]. split; [intros j; apply (Hcl j)|]. split; [reflexivity|]. split; [reflexivity|].
        split; [discriminate|]. split; reflexivity.
      + split; [apply (goodnode_new M W N B P PL), Hv|]. split; [discriminate|]. split; [discriminate|]. intros sx b Hsx Hb. cbn [rv_logp rv_value lg].
        rewrite (part_logp M W N B P PL) by assumption. rewrite (cp_d0 _ _ _ _ _ _ HC) by assumption. reflexivity.
    - intros b F Hb. rewrite (EV_teq M W N B P PL _ _ _ Heq). cbn [expectation]. unfold avg1. cbn [fst out_trace out_lw rv_value].
      transitivity (mean P (pb_d0 pb) (fun v => (/ INR N * rsum (map (fun sx => F (part P sx b v)) (seq 0 N)))%R)).
      + apply (mean_ext _ _ _ _ _ PL). intros v _. unfold Rdiv. rewrite Rmult_comm. f_equal. apply rsum_ext. intros sx _. rewrite (pw_zero M W N B P PL), exp_0. ring.
      + rewrite (mean_scale _ _ _ _ _ PL).
        pose proof (EV_rsum M W N B P PL (Draw (DrawDist (pb_d0 pb) false VNone) (fun x => Leaf x)) (fun sx v => F (part P sx b v)) (seq 0 N)) as HE.
        cbn [expectation] in HE. rewrite HE by (intros x _; exact I). clear HE.
        transitivity (/ INR N * rsum (map (fun _ : nat => integral M (Z 0) (fun z => (g1 0 z * F z)%R)) (seq 0 N)))%R.
        * f_equal. apply rsum_ext. intros sx Hsx. apply in_seq in Hsx. rewrite (mean_part _ _ _ _ _ PL) by (assumption || lia).
          rewrite (cp_d0 _ _ _ _ _ _ HC) by (assumption || lia). rewrite (ps_d0 _ _ _ HZ). reflexivity.
        * rewrite rsum_const, seq_length. field. apply not_0_INR. lia.
  Qed.

  Theorem sampler_claim K c q :
    vsmc dd base (pb_targets pb K) (pb_forwards pb K) (pb_reverses pb K) loss_fn avo resample (systematic W false) = Ok q -> claim c K q.
  Proof.
    intros H. unfold vsmc, pb_targets in H. injection H as <-. unfold pb_forwards at 2, pb_reverses. rewrite combine_seq.
    apply (loop_claim _ c K 0). apply init_claim.
  Qed.

  (** *** the loss, for objectives that average the incremental log-weights *)
  Context (Hadd : losses_add W B)
    (Hval : forall o px, out_px o = Some px -> lws (px_lv px) -> exists l, loss_fn o = Ok l /\ loss_tensor W B l /\
       forall b, b < B -> loss_at W b l = (- (rsum (map (fun sx => pw sx b (px_lv px)) (seq 0 N)) / INR N))%R).
  Notation avglw := (average_log_weight W N).
  Definition elbo_ok (k : nat) (o : out LV) : Prop :=
    match k with
    | O => out_loss o = None /\ out_lw o = tzero LV
    | S _ => exists l, out_loss o = Some l /\ loss_tensor W B l /\
        forall b, b < B -> (- loss_at W b l <= avglw b o)%R /\ (resample = false -> (- loss_at W b l = avglw b o)%R)
    end.
  Definition elbo (c : pyval (T LV)) (k : nat) (q : inf LV) : Prop :=
    forall kws s, shaped sd bd rep kws -> at_rest s -> forall o s', poss (run q c kws s) (Ok o, s') -> elbo_ok k o.
  Lemma rsum_add2 {I} (f g : I -> R) l : rsum (map (fun i => (f i + g i)%R) l) = (rsum (map f l) + rsum (map g l))%R.
  Proof. unfold rsum. induction l as [|i l IH]; cbn; [ring|]. rewrite IH. ring. Qed.
  Lemma prop_elbo base' k of_ or_ ot q c : ot < base' -> or_ < base' -> ot <> or_ ->
    let id := base' + 4 * k in
    claim c k q -> elbo c k q ->
    elbo c (S k) (IPropose (id + 2) (IExtend id (target_prog ot (gname (S k)) (pb_target pb (S k))) (kernel_prog or_ (gname (S k)) (gname k) (pb_rev pb k) (pb_rev_rep pb k)) (mkOpts default_loss None VNone false))
      (ICompose (id + 1) (kernel_prog of_ (gname k) (gname (S k)) (pb_fwd pb k) (pb_fwd_rep pb k)) q (mkOpts default_loss None VNone true))
      (mkOpts (fun o loss => rmap (fun l => tadd LV l loss) (loss_fn o)) None (VInt (Z.of_nat k)) true) (if avo then None else Some (stl_transf dd)) false).
  Proof.
    intros Hot' Hor' Hne' id Hc He kws s Hk Hs o s' Hx.
    apply (poss_teq W N B _ _ _ (prop_eq base' k of_ or_ ot q c kws s Hk (proj1 Hs))) in Hx. apply poss_tbind in Hx. destruct Hx as (y & Hy & Hx).
    pose proof (shaped_sub sd bd rep VNone _ (shaped_sub sd bd rep (VInt (Z.of_nat k)) kws Hk)) as Hk2.
    destruct (Hc _ s Hk2 Hs) as [HA _]. destruct (HA y Hy) as (r & w & v & Hr & Hw & _ & Hone).
    destruct (rest_eq base' k of_ or_ ot q Hot' Hor' Hne' c kws y r w v Hk Hr Hw Hone) as (f & Ef & Hf). apply (poss_teq W N B _ _ _ Ef) in Hx.
    apply poss_draw_inv in Hx. destruct Hx as (v' & Hv' & Hx). cbn [drawn] in Hv'.
    destruct (Hf v' Hv') as (w' & o' & s'' & Hmw & Et & Hone' & Hsc). apply (poss_teq W N B _ _ _ Et) in Hx. apply poss_leaf_inv in Hx. injection Hx as <- <-.
    destruct Hone as (o1 & s1 & -> & _ & _ & _ & _ & _ & Ew). destruct Hone' as (o2 & s2 & [= <- <-] & _ & _ & _ & _ & _ & Ew').
    destruct (Hsc o1 eq_refl) as (px & l & Epx & Lpx & Hpw & El & Eo).
    assert (Ebl : out_px (before_loss o) = Some px) by exact Epx.
    destruct (Hval _ px Ebl Lpx) as (l' & El' & Tl & Vl). rewrite El in El'. injection El' as <-.
    specialize (He _ s Hk2 Hs o1 s1 Hy). cbn [elbo_ok]. rewrite Eo. subst w w'.
    assert (Eavg : forall b, b < B -> avglw b o = (avglw b o1 - loss_at W b l)%R).
    { intros b Hb. unfold average_log_weight. rewrite Vl by exact Hb. unfold Rdiv. rewrite Ropp_mult_distr_l.
      transitivity ((rsum (map (fun sx => pw sx b (out_lw o1)) (seq 0 N)) + rsum (map (fun sx => pw sx b (px_lv px)) (seq 0 N))) * / INR N)%R; [|ring].
      f_equal. rewrite <- rsum_add2. apply rsum_ext. intros sx Hsx. apply in_seq in Hsx. apply Hpw; [lia|exact Hb]. }
    destruct k as [|k]; cbn [elbo_ok] in He.
    - destruct He as [E0 Ez]. unfold lossval. rewrite E0, (tadd_comm LV HL), (tadd_zero LV HL). exists l. split; [reflexivity|]. split; [exact Tl|].
      intros b Hb. rewrite Eavg by exact Hb. assert (E : avglw b o1 = 0%R).
      { unfold average_log_weight. rewrite Ez. transitivity (rsum (map (fun _ : nat => 0%R) (seq 0 N)) / INR N)%R.
        - do 2 f_equal. apply map_ext. intros sx. apply (pw_zero M W N B P PL).
        - rewrite rsum_const. unfold Rdiv. ring. }
      rewrite E. split; [lra|]. intros _. ring.
    - destruct He as (l1 & E1 & T1 & H1). unfold lossval. rewrite E1. exists (tadd LV l l1). destruct (Hadd _ _ Tl T1) as [Ta Va]. split; [reflexivity|]. split; [exact Ta|].
      intros b Hb. rewrite Eavg, Va by exact Hb. destruct (H1 b Hb) as [H2 H3]. split; [lra|]. intros Er. rewrite <- (H3 Er). ring.
  Qed.
  (** the average of numbers is at most the logarithm of the average of their exponentials *)
  Lemma log_mean_exp (f : nat -> R) : (rsum (map f (seq 0 N)) / INR N <= ln (rsum (map (fun i => exp (f i)) (seq 0 N)) / INR N))%R.
  Proof.
    assert (HI : (0 < INR N)%R) by (apply lt_0_INR; exact HN).
    set (a := (rsum (map f (seq 0 N)) / INR N)%R). rewrite <- (ln_exp a) at 1.
    assert (HS : (INR N * exp a <= rsum (map (fun i => exp (f i)) (seq 0 N)))%R).
    { assert (G : forall l, (exp a * (INR (length l) + (rsum (map f l) - INR (length l) * a)) <= rsum (map (fun i => exp (f i)) l))%R).
      { induction l as [|i l IH]; [cbn; lra|]. cbn [map length]. rewrite S_INR. change (rsum (f i :: map f l)) with (f i + rsum (map f l))%R.
        change (rsum (exp (f i) :: map (fun i => exp (f i)) l)) with (exp (f i) + rsum (map (fun i => exp (f i)) l))%R.
        assert (E : exp (f i) = (exp a * exp (f i - a))%R) by (rewrite <- exp_plus; f_equal; ring).
        pose proof (exp_ineq1_le (f i - a)) as H. apply (Rmult_le_compat_l (exp a)) in H; [|left; apply exp_pos]. rewrite <- E in H. lra. }
      specialize (G (seq 0 N)). rewrite seq_length in G. replace (rsum (map f (seq 0 N)) - INR N * a)%R with 0%R in G by (unfold a; field; lra). lra. }
    assert (HD : (exp a <= rsum (map (fun i => exp (f i)) (seq 0 N)) / INR N)%R).
    { apply Rmult_le_reg_l with (INR N); [exact HI|]. replace (INR N * (rsum (map (fun i => exp (f i)) (seq 0 N)) / INR N))%R with (rsum (map (fun i => exp (f i)) (seq 0 N))) by (field; lra). exact HS. }
    destruct HD as [HD | ->]; [left; apply ln_increasing; [apply exp_pos|exact HD]|lra].
  Qed.
  Lemma resample_elbo c k oid q : resample = true -> claim c (S k) q -> elbo c (S k) q -> elbo c (S k) (IResample oid q VNone None (systematic W false) false).
  Proof.
    intros Hre Hc He kws s Hk Hs o s' Hx. pose proof Hk as (K1 & K2 & K3 & K4).
    pose proof (run_resample_eq oid q VNone None (systematic W false) false c kws s (proj1 K1) (call_ok_clash _ K1)) as Heq.
    rewrite K2, K3, passable_systematic in Heq. apply (poss_teq W N B _ _ _ Heq) in Hx. apply poss_tbind in Hx. destruct Hx as (y & Hy & Hx).
    destruct (resample_step c k q kws s Hc Hk Hs y Hy) as (o1 & s1 & f & -> & Ey & Hl & r & _ & Hf). rewrite Ey in Hx.
    apply poss_draw_inv in Hx. destruct Hx as (u & Hu & Hx). destruct (Hf u Hu) as (o' & s'' & r' & Ef & _ & F2 & _ & F5 & _).
    rewrite Ef in Hx. apply poss_leaf_inv in Hx. injection Hx as <- <-.
    specialize (He _ s (shaped_sub sd bd rep VNone kws Hk) Hs o1 s1 Hy). cbn [elbo_ok] in *. destruct He as (l & El & Tl & Hb1).
    exists l. split; [apply F5, El|]. split; [exact Tl|]. intros b Hb.
    destruct (mean_facts W N B HN _ Hl) as [Lw Ewt]. destruct (Hb1 b Hb) as [H1 _]. split; [|congruence].
    assert (Ea : avglw b o = ln (rsum (map (fun i => exp (pw i b (out_lw o1))) (seq 0 N)) / INR N)).
    { unfold average_log_weight. rewrite F2.
      transitivity (rsum (map (fun _ : nat => ln (rsum (map (fun i => exp (pw i b (out_lw o1))) (seq 0 N)) / INR N)) (seq 0 N)) / INR N)%R.
      - do 2 f_equal. apply map_ext_in. intros sx Hsx. apply in_seq in Hsx. rewrite (pw_lws W N B) by exact Lw. rewrite <- (ln_exp (entry _ _ _ _)), Ewt by (assumption || lia).
        f_equal. unfold Z_hat. rewrite (col_length W N B) by exact Hl. unfold Rdiv. f_equal.
        rewrite <- (map_nth_er (anc_col W (out_lw o1) b)), (col_length W N B), map_map by exact Hl. apply rsum_ext. intros i Hi. apply in_seq in Hi.
        rewrite (col_entry W N B), (pw_lws W N B) by (assumption || lia). reflexivity.
      - rewrite rsum_const, seq_length. field. apply not_0_INR. lia. }
    rewrite Ea. apply Rle_trans with (avglw b o1); [exact H1|apply log_mean_exp].
  Qed.
  Lemma loop_elbo n c m : forall k q, claim c k q -> elbo c k q ->
    elbo c (k + m) (vsmc_loop dd loss_fn avo resample (systematic W false) base n k (map (fun i => step i) (seq k m)) q).
  Proof.
    induction m as [|m IH]; intros k q Hq He; cbn [seq map vsmc_loop].
    - rewrite Nat.add_0_r. exact He.
    - rewrite <- plus_Snm_nSm. unfold vsmc_step.
      pose proof (prop_claim base k (pb_oid_f pb k) (pb_oid_r pb k) (pb_oid_t pb (S k)) q (Hot (S k)) (Hor k) (Hne k) c Hq) as Hp.
      pose proof (prop_elbo base k (pb_oid_f pb k) (pb_oid_r pb k) (pb_oid_t pb (S k)) q c (Hot (S k)) (Hor k) (Hne k) Hq He) as Hpe.
      destruct (resample && (k <? n - 1)) eqn:Er; apply (IH (S k)); try assumption; [apply resample_claim, Hp|].
      apply andb_prop in Er as [Er _]. apply resample_elbo; assumption.
  Qed.
  Lemma init_elbo c : elbo c 0 (distribution_prog (pb_oid_t pb 0) (gname 0) (pb_d0 pb) (pb_rep0 pb)).
  Proof.
    intros kws s (K1 & K2 & K3 & K4) [Hcl _] o s' Hx.
    pose proof (init_free HL sd bd rep (pb_oid_t pb 0) (gname 0) (pb_d0 pb) (pb_rep0 pb) c kws s K1 (Hcl _) K2 K3 K4) as Heq.
    apply (poss_teq W N B _ _ _ Heq) in Hx. apply poss_draw_inv in Hx. destruct Hx as (v & Hv & Hx). apply poss_leaf_inv in Hx. injection Hx as -> _. split; reflexivity.
  Qed.
  Theorem sampler_elbo K c q :
    vsmc dd base (pb_targets pb K) (pb_forwards pb K) (pb_reverses pb K) loss_fn avo resample (systematic W false) = Ok q -> elbo c K q.
  Proof.
    intros H. unfold vsmc, pb_targets in H. injection H as <-. unfold pb_forwards at 2, pb_reverses. rewrite combine_seq.
    apply (loop_elbo _ c K 0); [apply init_claim|apply init_elbo].
  Qed.

  (** *** bounded steps give bounded weights and losses *)
  Context (supp : D LV -> T LV -> Prop) (PP : positive_population W N B P supp) (points : nat -> T LS -> Prop) (U : R)
    (Hb0 : forall v sx b, supp (pb_d0 pb) v -> sx < N -> b < B -> points 0 (part P sx b v))
    (HbS : forall k v0 v sx b, supp (pb_fwd pb k v0) v -> sx < N -> b < B -> points (S k) (part P sx b v))
    (HbU : forall k z z', points k z -> points (S k) z' -> (- U <= increment M pb1 k z z' <= U)%R).
  Notation aris := (arises W B supp).
  Definition within_ok (k : nat) (o : out LV) : Prop :=
    exists r, out_trace o = [(gname k, r)] /\ (forall sx b, sx < N -> b < B -> points k (part P sx b (rv_value r))) /\
      (forall sx b, sx < N -> b < B -> (- (INR k * U) <= pw sx b (out_lw o) <= INR k * U)%R) /\
      match k with
      | O => out_loss o = None /\ out_lw o = tzero LV
      | S _ => exists l, out_loss o = Some l /\ loss_tensor W B l /\ forall b, b < B -> (- (INR k * U) <= loss_at W b l <= INR k * U)%R
      end.
  Definition withinU (c : pyval (T LV)) (k : nat) (q : inf LV) : Prop :=
    forall kws s, shaped sd bd rep kws -> at_rest s -> forall o s', aris (run q c kws s) (Ok o, s') -> within_ok k o.
  Lemma sum_within (f : nat -> R) X : (forall sx, sx < N -> (- X <= f sx <= X)%R) -> (- X <= rsum (map f (seq 0 N)) / INR N <= X)%R.
  Proof.
    intros H. assert (HI : (0 < INR N)%R) by (apply lt_0_INR; exact HN).
    assert (G : forall l, (forall i, In i l -> (- X <= f i <= X)%R) -> (- (INR (length l) * X) <= rsum (map f l) <= INR (length l) * X)%R).
    { induction l as [|i l IH]; intros Hi; [cbn; lra|]. cbn [map length]. rewrite S_INR. change (rsum (f i :: map f l)) with (f i + rsum (map f l))%R.
      pose proof (Hi i (or_introl eq_refl)). pose proof (IH (fun j Hj => Hi j (or_intror Hj))). lra. }
    specialize (G (seq 0 N)). rewrite seq_length in G. destruct G as [G1 G2]; [intros i Hi; apply in_seq in Hi; apply H; lia|].
    split; (apply Rmult_le_reg_l with (INR N); [exact HI|]; replace (INR N * (rsum (map f (seq 0 N)) / INR N))%R with (rsum (map f (seq 0 N))) by (field; lra); lra).
  Qed.
  Lemma prop_within base' k of_ or_ ot q c : ot < base' -> or_ < base' -> ot <> or_ ->
    let id := base' + 4 * k in
    claim c k q -> withinU c k q ->
    withinU c (S k) (IPropose (id + 2) (IExtend id (target_prog ot (gname (S k)) (pb_target pb (S k))) (kernel_prog or_ (gname (S k)) (gname k) (pb_rev pb k) (pb_rev_rep pb k)) (mkOpts default_loss None VNone false))
      (ICompose (id + 1) (kernel_prog of_ (gname k) (gname (S k)) (pb_fwd pb k) (pb_fwd_rep pb k)) q (mkOpts default_loss None VNone true))
      (mkOpts (fun o loss => rmap (fun l => tadd LV l loss) (loss_fn o)) None (VInt (Z.of_nat k)) true) (if avo then None else Some (stl_transf dd)) false).
  Proof.
    intros Hot' Hor' Hne' id Hc He kws s Hk Hs o s' Hx.
    apply (aris_teq W B supp _ _ _ (prop_eq base' k of_ or_ ot q c kws s Hk (proj1 Hs))) in Hx. apply aris_tbind in Hx. destruct Hx as (y & Hy & Hx).
    pose proof (shaped_sub sd bd rep VNone _ (shaped_sub sd bd rep (VInt (Z.of_nat k)) kws Hk)) as Hk2.
    destruct (Hc _ s Hk2 Hs) as [HA _]. destruct (HA y (arises_possible W N B supp P PP _ _ Hy)) as (r & w & v & Hr & Hw & _ & Hone).
    destruct (rest_eq base' k of_ or_ ot q Hot' Hor' Hne' c kws y r w v Hk Hr Hw Hone) as (f & Ef & Hf). apply (aris_teq W B supp _ _ _ Ef) in Hx.
    apply aris_dist_inv in Hx. destruct Hx as (v' & Hv' & Hx). pose proof (supp_particles _ _ _ _ _ PP _ _ Hv') as Hp'.
    destruct (Hf v' Hp') as (w' & o' & s'' & Hmw & Et & Hone' & Hsc). apply (aris_teq W B supp _ _ _ Et) in Hx. apply aris_leaf_inv in Hx. injection Hx as <- <-.
    destruct Hone as (o1 & s1 & -> & _ & Ht1 & Hv1 & _ & _ & Ew). destruct Hone' as (o2 & s2 & [= <- <-] & _ & Ht2 & Hv2 & _ & _ & Ew').
    destruct (Hsc o1 eq_refl) as (px & l & Epx & Lpx & Hpw & El & Eo).
    assert (Ebl : out_px (before_loss o) = Some px) by exact Epx.
    destruct (Hval _ px Ebl Lpx) as (l' & El' & Tl & Vl). rewrite El in El'. injection El' as <-.
    destruct (He _ s Hk2 Hs o1 s1 Hy) as (r1 & Et1 & Hp1 & Hw1 & Hl1). rewrite Et1 in Ht1. injection Ht1 as ->. subst w w'.
    assert (Hp2 : forall sx b, sx < N -> b < B -> points (S k) (part P sx b v')) by (intros sx b Hsx Hb; exact (HbS k v v' sx b Hv' Hsx Hb)).
    assert (Hinc : forall sx b, sx < N -> b < B -> (- U <= pw sx b (px_lv px) <= U)%R).
    { intros sx b Hsx Hb. destruct Hmw as [_ Hmw]. specialize (Hmw sx b Hsx Hb). rewrite Hpw in Hmw by assumption.
      assert (E' : pw sx b (px_lv px) = increment M pb1 k (part P sx b v) (part P sx b v')).
      { unfold increment, path_density. rewrite !ln_exp. unfold lg in Hmw. lra. }
      rewrite E'. apply HbU; [rewrite <- Hv1; apply Hp1; assumption|apply Hp2; assumption]. }
    assert (Hlv : forall b, b < B -> (- U <= loss_at W b l <= U)%R).
    { intros b Hb. rewrite Vl by exact Hb. pose proof (sum_within (fun sx => pw sx b (px_lv px)) U (fun sx Hsx => Hinc sx b Hsx Hb)). lra. }
    eexists. split; [exact Ht2|]. rewrite Hv2. split; [exact Hp2|]. rewrite !S_INR. split.
    - intros sx b Hsx Hb. rewrite Hpw by assumption. pose proof (Hinc sx b Hsx Hb). pose proof (Hw1 sx b Hsx Hb). lra.
    - rewrite Eo. destruct k as [|k].
      + destruct Hl1 as [E0 _]. unfold lossval. rewrite E0, (tadd_comm LV HL), (tadd_zero LV HL). exists l. split; [reflexivity|]. split; [exact Tl|].
        intros b Hb. cbn [INR]. pose proof (Hlv b Hb). lra.
      + destruct Hl1 as (l1 & E1 & T1 & H1). unfold lossval. rewrite E1. destruct (Hadd _ _ Tl T1) as [Ta Va]. exists (tadd LV l l1). split; [reflexivity|]. split; [exact Ta|].
        intros b Hb. rewrite Va by exact Hb. pose proof (Hlv b Hb). pose proof (H1 b Hb). lra.
  Qed.
  Lemma resample_within c k oid q : claim c (S k) q -> withinU c (S k) q -> withinU c (S k) (IResample oid q VNone None (systematic W false) false).
  Proof.
    intros Hc He kws s Hk Hs o s' Hx. pose proof Hk as (K1 & K2 & K3 & K4).
    pose proof (run_resample_eq oid q VNone None (systematic W false) false c kws s (proj1 K1) (call_ok_clash _ K1)) as Heq.
    rewrite K2, K3, passable_systematic in Heq. apply (aris_teq W B supp _ _ _ Heq) in Hx. apply aris_tbind in Hx. destruct Hx as (y & Hy & Hx).
    destruct (resample_step c k q kws s Hc Hk Hs y (arises_possible W N B supp P PP _ _ Hy)) as (o1 & s1 & f & -> & Ey & Hl & r & Ht & Hf). rewrite Ey in Hx.
    apply aris_rand_inv in Hx. destruct Hx as (u & Hu & Hx). destruct (Hf u Hu) as (o' & s'' & r' & Ef & _ & F2 & (o2 & s2 & [= <- <-] & _ & Ht2 & _) & F5 & Hm).
    rewrite Ef in Hx. apply aris_leaf_inv in Hx. injection Hx as <- <-.
    destruct (He _ s (shaped_sub sd bd rep VNone kws Hk) Hs o1 s1 Hy) as (r1 & Et1 & Hp1 & Hw1 & l & El & Tl & Hb1). rewrite Et1 in Ht. injection Ht as ->.
    exists r'. split; [exact Ht2|]. split; [|split].
    - intros sx b Hsx Hb. rewrite Hm by assumption. apply Hp1; [apply (anc_lt W N B HN); assumption|exact Hb].
    - intros sx b Hsx Hb. destruct (mean_facts W N B HN _ Hl) as [Lw Ewt]. rewrite F2, (pw_lws W N B) by exact Lw. rewrite <- (ln_exp (entry _ _ _ _)), Ewt by assumption.
      assert (Ez : Z_hat (anc_col W (out_lw o1) b) = (rsum (map exp (map (fun i => pw i b (out_lw o1)) (seq 0 N))) / INR (length (map (fun i => pw i b (out_lw o1)) (seq 0 N))))%R).
      { unfold Z_hat. rewrite (col_length W N B) by exact Hl. rewrite !map_length, seq_length, map_map. unfold Rdiv. f_equal.
        rewrite <- (map_nth_er (anc_col W (out_lw o1) b)), (col_length W N B), map_map by exact Hl. apply rsum_ext. intros i Hi. apply in_seq in Hi.
        rewrite (col_entry W N B), (pw_lws W N B) by (assumption || lia). reflexivity. }
      rewrite Ez. apply (log_Z_hat_bounds (map (fun i => pw i b (out_lw o1)) (seq 0 N))).
      + destruct N; [lia|discriminate].
      + intros x Hxi. apply in_map_iff in Hxi. destruct Hxi as (i & <- & Hi). apply in_seq in Hi. apply Hw1; [lia|exact Hb].
      + apply log_Z_hat_spec. destruct N; [lia|discriminate].
    - exists l. split; [apply F5, El|]. split; [exact Tl|exact Hb1].
  Qed.
  Lemma loop_within n c m : forall k q, claim c k q -> withinU c k q ->
    withinU c (k + m) (vsmc_loop dd loss_fn avo resample (systematic W false) base n k (map (fun i => step i) (seq k m)) q).
  Proof.
    induction m as [|m IH]; intros k q Hq He; cbn [seq map vsmc_loop].
    - rewrite Nat.add_0_r. exact He.
    - rewrite <- plus_Snm_nSm. unfold vsmc_step.
      pose proof (prop_claim base k (pb_oid_f pb k) (pb_oid_r pb k) (pb_oid_t pb (S k)) q (Hot (S k)) (Hor k) (Hne k) c Hq) as Hp.
      pose proof (prop_within base k (pb_oid_f pb k) (pb_oid_r pb k) (pb_oid_t pb (S k)) q c (Hot (S k)) (Hor k) (Hne k) Hq He) as Hpe.
      destruct (resample && (k <? n - 1)) eqn:Er; apply (IH (S k)); try assumption; [apply resample_claim, Hp|apply resample_within; assumption].
  Qed.
  Lemma init_within c : withinU c 0 (distribution_prog (pb_oid_t pb 0) (gname 0) (pb_d0 pb) (pb_rep0 pb)).
  Proof.
    intros kws s (K1 & K2 & K3 & K4) [Hcl _] o s' Hx.
    pose proof (init_free HL sd bd rep (pb_oid_t pb 0) (gname 0) (pb_d0 pb) (pb_rep0 pb) c kws s K1 (Hcl _) K2 K3 K4) as Heq.
    apply (aris_teq W B supp _ _ _ Heq) in Hx. apply aris_dist_inv in Hx. destruct Hx as (v & Hv & Hx). apply aris_leaf_inv in Hx. injection Hx as -> _.
    eexists. split; [reflexivity|]. split; [intros sx b Hsx Hb; exact (Hb0 v sx b Hv Hsx Hb)|]. split; [|split; reflexivity].
    intros sx b _ _. cbn [out_lw INR]. rewrite (pw_zero M W N B P PL). lra.
  Qed.
  Theorem sampler_within K c q :
    vsmc dd base (pb_targets pb K) (pb_forwards pb K) (pb_reverses pb K) loss_fn avo resample (systematic W false) = Ok q -> withinU c K q.
  Proof.
    intros H. unfold vsmc, pb_targets in H. injection H as <-. unfold pb_forwards at 2, pb_reverses. rewrite combine_seq.
    apply (loop_within _ c K 0); [apply init_claim|apply init_within].
  Qed.
End Sampler.

(** *** nvo_avo is such an objective *)
Section Avo.
  Context {LV : lib} (W : array_view LV) (N B : nat) (HN : 0 < N).
  Lemma rsum_opp_scale (l : list R) a : rsum (map (fun x => (a * - x)%R) l) = (- (a * rsum l))%R.
  Proof. unfold rsum. induction l as [|x l IH]; cbn; [ring|]. rewrite IH. ring. Qed.
  Lemma avo_sum (l : list ereal) : l <> [] ->
    rsum (map (fun wf => (fst wf * snd wf)%R) (combine (softmax (map (fun _ => Fin 0) l)) (map (fun x => (- fin x)%R) l))) = (- (rsum (map fin l) / INR (length l)))%R.
  Proof.
    intros Hne. assert (Hs : rsum (map eexp (map (fun _ => Fin 0) l)) = INR (length l)).
    { rewrite map_map. cbn [eexp]. rewrite rsum_const, exp_0. ring. }
    assert (Hsm : softmax (map (fun _ => Fin 0) l) = map (fun _ : ereal => (/ INR (length l))%R) l).
    { unfold softmax. rewrite Hs, map_map. apply map_ext. intros x. cbn [eexp]. rewrite exp_0. unfold Rdiv. ring. }
    rewrite Hsm. unfold Rdiv. generalize (/ INR (length l))%R as a. intros a.
    clear. replace (rsum (map (fun wf : R * R => (fst wf * snd wf)%R) (combine (map (fun _ => a) l) (map (fun x => (- fin x)%R) l)))) with (rsum (map (fun x => (a * - x)%R) (map fin l))).
    - rewrite rsum_opp_scale. ring.
    - unfold rsum. induction l as [|x l IH]; [reflexivity|]. cbn. rewrite IH. reflexivity.
  Qed.
  Lemma avo_objective o px : out_px o = Some px -> log_weights W N B (px_lv px) ->
    exists l, nvo_avo_tensor W o = Ok l /\ loss_tensor W B l /\
      forall b, b < B -> loss_at W b l = (- (rsum (map (fun s => particle_weight W s b (px_lv px)) (seq 0 N)) / INR N))%R.
  Proof.
    intros Epx Hl. unfold nvo_avo_tensor. rewrite Epx. eexists. split; [reflexivity|].
    split.
    - split; [apply of_tensor|]. rewrite to_of. split; [cbn; rewrite (proj2 Hl); reflexivity|]. intros b Hb. eexists. reflexivity.
    - intros b Hb. unfold loss_at. rewrite to_of. cbn [avo_values at_ fin]. pose proof (col_length W N B _ b Hl) as Ec. unfold anc_col in Ec.
      rewrite avo_sum by (intros E; rewrite E in Ec; cbn in Ec; lia). rewrite Ec. do 2 f_equal.
      rewrite <- (map_nth_er (fiber0 (to_arr W (px_lv px)) [b])) at 1. rewrite Ec, map_map. apply rsum_ext. intros i Hi. apply in_seq in Hi.
      change (fiber0 (to_arr W (px_lv px)) [b]) with (anc_col W (px_lv px) b). rewrite (col_entry W N B), (pw_lws W N B) by (assumption || lia). reflexivity.
  Qed.
End Avo.

